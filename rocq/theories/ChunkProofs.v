(** Invariant of the chunk-backed buffer. *)
From Coq Require Import List NArith Lia Bool Permutation.
From Verif Require Import WireModel WireProofs ChunkModel ChunkSpec ChunkPoolProofs.
Import ListNotations.
Local Open Scope N_scope.

(** *** pool histories *)
Lemma pool_inv cb mx s : 8 <= cb -> mx < 2 ^ 64 -> poolReach cb mx s -> chunkBytes (pl s) = cb /\ maxChunks (pl s) = mx /\ exists fr, PInv (pl s) (pm s) (owned s) (held s) fr.
Proof.
  intros Hcb Hmx R. induction R as [m|s o s' c l R IH Lg E].
  - split; [reflexivity|]. split; [reflexivity|]. exists []. constructor; cbn; try assumption; try reflexivity; try constructor. unfold len. cbn. lia.
  - destruct IH as (B1 & B2 & fr & I). destruct o as [up|bytes up|c0|c0|keep|a d]; cbn [poolDo poolLegal] in *.
    + destruct (acquire (pl s) (pm s) up) as [[p' c'] l'] eqn:A. injection E as <- <- <-. cbn [pl pm owned held].
      destruct (do_acquire _ _ _ _ _ I up p' c' l' A Lg) as [(-> & -> & -> & _)|(fr' & Z & Z1 & Z2 & I' & _)].
      * cbn [empty snd upstream]. split; [exact B1|]. split; [exact B2|]. exists fr. exact I.
      * split; [congruence|]. split; [congruence|]. exists fr'. unfold empty. rewrite (proj2 (N.eqb_neq (snd c') 0)) by lia. exact I'.
    + destruct (acquireOversized (pl s) bytes up) as [[p' c'] l'] eqn:A. injection E as <- <- <-. cbn [pl pm owned held]. destruct Lg as [G0 G].
      destruct (do_acquireBig _ _ _ _ _ I bytes up p' c' l' A G0 G) as [(-> & -> & -> & _)|(-> & -> & Z1 & Z2 & I')].
      * cbn [empty snd upstream]. split; [exact B1|]. split; [exact B2|]. exists fr. exact I.
      * split; [congruence|]. split; [congruence|]. exists fr. unfold empty. cbn [snd]. rewrite (proj2 (N.eqb_neq bytes 0)) by lia. exact I'.
    + destruct (release (pl s) (pm s) c0) as [p' m'] eqn:A. injection E as <- <- <-. cbn [pl pm owned held upstream]. destruct Lg as [L1 L2].
      destruct (do_release _ _ _ _ _ I c0 p' m' (drop c0 (held s)) A (drop_perm _ _ L1) L2) as (Z1 & Z2 & I' & _). split; [congruence|]. split; [congruence|]. eexists. exact I'.
    + destruct (releaseOversized (pl s) c0) as [p' l'] eqn:A. injection E as <- <- <-. cbn [pl pm owned held].
      destruct (do_releaseBig _ _ _ _ _ I c0 p' l' (drop c0 (held s)) A (drop_perm _ _ Lg)) as (-> & _ & _ & Z1 & Z2 & I'). split; [congruence|]. split; [congruence|]. exists fr. cbn [upstream]. replace (fst c0, snd c0) with c0 by (destruct c0; reflexivity). exact I'.
    + destruct (do_reclaim keep _ _ _ _ _ I) as (p' & l' & fr' & A & _ & Z1 & Z2 & I' & _). rewrite A in E. injection E as <- <- <-. cbn [pl pm owned held]. split; [congruence|]. split; [congruence|]. exists fr'. exact I'.
    + injection E as <- <- <-. cbn [pl pm owned held upstream]. split; [exact B1|]. split; [exact B2|]. exists fr. destruct Lg as (c0 & Hc & Hi). eapply pi_held_write; eauto.
Qed.

(** *** sealed chunks *)
Definition sealed := (N * N * N)%type. (** address, threshold, size *)
Definition blk (x : sealed) : block := (fst (fst x), snd x).
Fixpoint schain (m : memory) (h : N) (l : list sealed) : Prop :=
  match l with
  | [] => h = 0
  | (a, t, s) :: r => h = a /\ a <> 0 /\ hThreshold m a = t /\ hSize m a = s /\ schain m (hNext m a) r
  end.
Definition hdrSame (m m' : memory) (a : N) : Prop := forall x, a <= x < a + 24 -> m' x = m x.
Lemma hdr_same m m' a : hdrSame m m' a -> hNext m' a = hNext m a /\ hThreshold m' a = hThreshold m a /\ hSize m' a = hSize m a.
Proof. intros H. unfold hNext, hThreshold, hSize. rewrite !(rd_ext m m'); [auto|..]; intros x Hx; apply H; lia. Qed.
Lemma schain_ext m m' l : forall h, (forall x, In x l -> hdrSame m m' (fst (blk x))) -> schain m h l -> schain m' h l.
Proof.
  induction l as [|[[a t] s] l IH]; intros h H C; [exact C|]. cbn [schain] in *. destruct C as (C1 & C2 & C3 & C4 & C5).
  destruct (hdr_same m m' a) as (E1 & E2 & E3); [apply (H (a, t, s)); left; reflexivity|]. rewrite E1, E2, E3. repeat split; try assumption. apply IH; [|exact C5]. intros x Hx. apply H. right. exact Hx.
Qed.
Lemma writeHeader_read m c n t s : n < 2 ^ 64 -> t < 2 ^ 64 -> s < 2 ^ 64 ->
  hNext (writeHeader m c n t s) c = n /\ hThreshold (writeHeader m c n t s) c = t /\ hSize (writeHeader m c n t s) c = s.
Proof.
  intros Hn Ht Hs. unfold writeHeader. set (h := enc 8 n ++ enc 8 t ++ enc 8 s).
  assert (R : rd (wr m c h) c 24 = h) by (change 24%nat with (length h); apply rd_wr).
  change 24%nat with (8 + (8 + 8))%nat in R. rewrite !rd_app in R. unfold h in R.
  assert (X : forall (a b a' b' : list N), length a = length a' -> a ++ b = a' ++ b' -> a = a' /\ b = b').
  { clear. induction a as [|x a IH]; intros b [|y a'] b' L E; try discriminate; [auto|]. cbn in *. injection E as -> E. injection L as L. destruct (IH b a' b' L E) as [ -> -> ]. auto. }
  apply X in R; [|rewrite rd_len; reflexivity]. destruct R as [R1 R]. apply X in R; [|rewrite rd_len; reflexivity]. destruct R as [R2 R3].
  unfold hNext, hThreshold, hSize. fold h. fold h in R1, R2, R3. change (c + N.of_nat 8) with (c + 8) in *. rewrite <- N.add_assoc in R3. change (8 + N.of_nat 8) with 16 in R3.
  rewrite R1, R2, R3, !dec_enc. change (256 ^ N.of_nat 8) with (2 ^ 64). rewrite !N.mod_small by assumption. auto.
Qed.
Lemma writeHeader_out m c n t s x : x < c \/ c + 24 <= x -> writeHeader m c n t s x = m x.
Proof. intros H. unfold writeHeader. apply wr_out. rewrite !len_app', !len_enc. lia. Qed.
Lemma schain_snoc m m' l ta tt ts x t s : forall h, schain m h (l ++ [(ta, tt, ts)]) -> x <> 0 ->
  (forall y, In y l -> hdrSame m m' (fst (blk y))) ->
  hNext m' ta = x -> hThreshold m' ta = tt -> hSize m' ta = ts -> hNext m' x = 0 -> hThreshold m' x = t -> hSize m' x = s ->
  schain m' h (l ++ [(ta, tt, ts); (x, t, s)]).
Proof.
  induction l as [|[[a t0] s0] l IH]; intros h C Hx H E1 E2 E3 E4 E5 E6; cbn [app schain] in *.
  - destruct C as (C1 & C2 & C3 & C4 & C5). split; [exact C1|]. split; [exact C2|]. split; [exact E2|]. split; [exact E3|]. split; [exact E1|]. split; [exact Hx|]. auto.
  - destruct C as (C1 & C2 & C3 & C4 & C5). destruct (hdr_same m m' a) as (F1 & F2 & F3); [apply (H (a, t0, s0)); left; reflexivity|].
    rewrite F1, F2, F3. split; [exact C1|]. split; [exact C2|]. split; [exact C3|]. split; [exact C4|]. apply IH; auto. intros y Hy. apply H. right. exact Hy.
Qed.

Lemma tail_snoc l0 t : match l0 ++ [t] with [] => 0 | _ => fst (blk (last (l0 ++ [t]) (0, 0, 0))) end = fst (blk t).
Proof. rewrite last_last. destruct l0; reflexivity. Qed.

(** *** the invariant *)
Definition headBlocks (b : buffer) : list block := if snd (head b) =? 0 then [] else [head b].
Definition bheld (b : buffer) (l : list sealed) : list block := map blk l ++ headBlocks b.
Definition okSize (cb : N) (x : block) : Prop := cb <= snd x.
Record BInv (b : buffer) (p : pool) (m : memory) (ow oth : list block) (fr : list N) (l : list sealed) : Prop := {
  bi_pool : PInv p m ow (bheld b l ++ oth) fr;
  bi_cb : bChunkBytes b = chunkBytes p;
  bi_24 : 24 <= chunkBytes p;
  bi_chain : schain m (sealedHead b) l;
  bi_tail : sealedTail b = match l with [] => 0 | _ => fst (blk (last l (0, 0, 0))) end;
  bi_thr : Forall (fun x => snd (fst x) < 2 ^ 64) l;
  bi_sizes : Forall (okSize (chunkBytes p)) (bheld b l);
  bi_head : snd (head b) <> 0 -> headSize b = snd (head b) /\ 24 <= headOffset b <= snd (head b) }.
(** Where the payload of a descriptor lies. *)
Definition located (b : buffer) (m : memory) (l : list sealed) (r : N * N * list N) : Prop :=
  let '(pos, a, d) := r in
  rd m a (length d) = d /\
  (d = [] \/
   (snd (head b) <> 0 /\ fst (head b) + 24 <= a /\ a + len d <= fst (head b) + headOffset b /\ pos <= headLast b) \/
   (exists x, In x l /\ fst (blk x) + 24 <= a /\ a + len d <= fst (blk x) + snd (blk x) /\ pos < snd (fst x))).

Lemma pairwise_app l1 l2 : pairwise (l1 ++ l2) <-> pairwise l1 /\ pairwise l2 /\ forall x y, In x l1 -> In y l2 -> disjoint x y.
Proof.
  induction l1 as [|x l1 IH]; cbn [app].
  - split; [|tauto]. intros H. split; [constructor|]. split; [exact H|]. intros x y [].
  - rewrite !pairwise_cons, IH, Forall_app, !Forall_forall. split.
    + intros [[H1 H2] (H3 & H4 & H5)]. split; [split; [exact H1|exact H3]|]. split; [exact H4|]. intros a y [ <- |Ha] Hy; auto.
    + intros [[H1 H2] (H3 & H4)]. split; [split; [exact H1|]|split; [exact H2|split; [exact H3|]]].
      * intros y Hy. apply H4; [left; reflexivity|exact Hy].
      * intros a y Ha Hy. apply H4; [right; exact Ha|exact Hy].
Qed.
Lemma callsOk_app he l1 l2 : forall ow, callsOk ow he (l1 ++ l2) <-> callsOk ow he l1 /\ callsOk (upstream ow l1) he l2.
Proof. induction l1 as [|[a n|a n] l1 IH]; intros ow; cbn [app callsOk upstream]; [tauto|apply IH|rewrite IH; tauto]. Qed.
Lemma upstream_app l1 l2 : forall ow, upstream ow (l1 ++ l2) = upstream (upstream ow l1) l2.
Proof. induction l1 as [|[a n|a n] l1 IH]; intros ow; cbn [app upstream]; auto. Qed.
Lemma callsOk_incl he he' l : incl he' he -> forall ow, callsOk ow he l -> callsOk ow he' l.
Proof. intros H. induction l as [|[a n|a n] l IH]; intros ow; cbn [callsOk]; auto. intros (H1 & H2 & H3). repeat split; auto. rewrite Forall_forall in *. auto. Qed.

Lemma releaseChunk_ok b p m ow he he' fr c p' m' l : PInv p m ow he fr -> Permutation he (c :: he') -> bChunkBytes b = chunkBytes p -> chunkBytes p <= snd c ->
  releaseChunk b p m c = (p', m', l) ->
  exists fr', PInv p' m' (upstream ow l) he' fr' /\ chunkBytes p' = chunkBytes p /\ maxChunks p' = maxChunks p /\ callsOk ow he' l /\ (forall x, ~ (fst c <= x < fst c + 8) -> m' x = m x).
Proof.
  intros I P B Z E. unfold releaseChunk in E. destruct (bChunkBytes b <? snd c) eqn:E0.
  - destruct (releaseOversized p c) as [p1 l1] eqn:A. injection E as <- <- <-. destruct (do_releaseBig _ _ _ _ _ I c p1 l1 he' A P) as (-> & Ho & D & Z1 & Z2 & I').
    exists fr. cbn [upstream callsOk]. replace (fst c, snd c) with c by (destruct c; reflexivity). split; [exact I'|]. split; [exact Z1|]. split; [exact Z2|]. split; [tauto|reflexivity].
  - apply N.ltb_ge in E0. destruct (release p m c) as [p1 m1] eqn:A. injection E as <- <- <-. destruct (do_release _ _ _ _ _ I c p1 m1 he' A P ltac:(lia)) as (Z1 & Z2 & I' & O).
    exists (fst c :: fr). cbn [upstream callsOk]. split; [exact I'|]. split; [exact Z1|]. split; [exact Z2|]. split; [tauto|exact O].
Qed.

(** Memory changes that leave the payload and the header of every remaining chunk. *)
Lemma located_mem b m m' l r : (forall x, In x (map blk l ++ headBlocks b) -> forall a, fst x <= a < fst x + snd x -> m' a = m a) -> (snd (head b) <> 0 -> headOffset b <= snd (head b)) ->
  located b m l r -> located b m' l r.
Proof.
  intros H Ho. destruct r as [[pos a] d]. intros [L1 L2]. split; [|exact L2].
  destruct L2 as [ -> |[(L2 & L3 & L4 & L5)|(x & L2 & L3 & L4 & L5)]]; [reflexivity|..]; (etransitivity; [|exact L1]); apply rd_ext; intros y Hy.
  - apply (H (head b)); [apply in_or_app; right; unfold headBlocks; rewrite (proj2 (N.eqb_neq _ _) L2); left; reflexivity|]. specialize (Ho L2). unfold len in L4. lia.
  - apply (H (blk x)); [apply in_or_app; left; apply in_map; exact L2|]. unfold len in L4. lia.
Qed.
Lemma bi_pair b p m ow oth fr l : BInv b p m ow oth fr l -> pairwise (map blk l ++ headBlocks b ++ oth).
Proof. intros I. pose proof (pi_pair' _ _ _ _ _ (bi_pool _ _ _ _ _ _ _ I)) as P. apply pairwise_app in P. destruct P as (P & _). unfold bheld in P. rewrite <- app_assoc in P. exact P. Qed.
Lemma bi_pos b p m ow oth fr l x : BInv b p m ow oth fr l -> In x (bheld b l ++ oth) -> 0 < fst x /\ 0 < snd x /\ fst x + snd x <= 2 ^ 64.
Proof. intros I H. apply (pi_pos' _ _ _ _ _ (bi_pool _ _ _ _ _ _ _ I)). apply in_or_app. left. exact H. Qed.

(** Writing the payload into the head chunk. *)
Lemma write_ok b p m ow oth fr l blob pos :
  BInv b p m ow oth fr l -> snd (head b) <> 0 -> headOffset b + len blob <= snd (head b) ->
  let b' := setHead b (head b) (headOffset b + len blob) (headSize b) pos in let dst := fst (head b) + headOffset b in let m' := wr m dst blob in
  BInv b' p m' ow oth fr l /\ (forall r, located b m l r -> posOf r < pos -> located b' m' l r) /\ located b' m' l (pos, dst, blob) /\ Forall (fun x => sameIn x m m') oth.
Proof.
  intros I Hh Hf b' dst m'. pose proof (bi_pair _ _ _ _ _ _ _ I) as P. assert (HB : headBlocks b = [head b]) by (unfold headBlocks; rewrite (proj2 (N.eqb_neq _ _) Hh); reflexivity).
  destruct (bi_head _ _ _ _ _ _ _ I Hh) as (S1 & S2 & S3). rewrite HB in P. apply pairwise_app in P. destruct P as (P1 & P2 & P3). cbn [app] in P2. apply pairwise_cons in P2. destruct P2 as [P2 P4]. rewrite Forall_forall in P2.
  assert (DS : forall x, In x (map blk l) -> disjoint x (head b)) by (intros x Hx; apply P3; [exact Hx|left; reflexivity]).
  assert (Out : forall x, disjoint x (head b) -> forall a, fst x <= a < fst x + snd x -> m' a = m a) by (intros x Dx a Ha; apply wr_out; unfold disjoint in Dx; subst dst; lia).
  assert (Sm : Forall (fun x => sameIn x m m') oth) by (rewrite Forall_forall; intros x Hx a Ha; apply (Out x); [apply disjoint_sym; apply P2; exact Hx|exact Ha]).
  assert (In24 : forall x, In x l -> 24 <= snd (blk x)).
  { intros x Hx. pose proof (proj1 (Forall_forall _ _) (bi_sizes _ _ _ _ _ _ _ I) (blk x) ltac:(apply in_or_app; left; apply in_map; exact Hx)) as Z. pose proof (bi_24 _ _ _ _ _ _ _ I). unfold okSize in Z. lia. }
  split; [|split; [|split; [|exact Sm]]].
  - constructor.
    + change (bheld b' l) with (bheld b l). apply (pi_held_write _ _ _ _ _ (bi_pool _ _ _ _ _ _ _ I) dst blob (head b)); [apply in_or_app; left; apply in_or_app; right; rewrite HB; left; reflexivity|]. unfold inside, dst. lia.
    + exact (bi_cb _ _ _ _ _ _ _ I).
    + exact (bi_24 _ _ _ _ _ _ _ I).
    + apply (schain_ext m); [|exact (bi_chain _ _ _ _ _ _ _ I)]. intros x Hx a Ha. apply (Out (blk x)); [apply DS; apply in_map; exact Hx|]. specialize (In24 x Hx). lia.
    + exact (bi_tail _ _ _ _ _ _ _ I).
    + exact (bi_thr _ _ _ _ _ _ _ I).
    + exact (bi_sizes _ _ _ _ _ _ _ I).
    + intros _. cbn [b' setHead head headSize headOffset]. split; [exact S1|lia].
  - intros [[q a] d] [L1 L2] Hq. unfold posOf in Hq. cbn [fst] in Hq. unfold located. cbn [b' setHead head headOffset headLast]. split.
    + destruct L2 as [ -> |[(L2 & L3 & L4 & L5)|(x & L2 & L3 & L4 & L5)]]; [reflexivity|..]; (etransitivity; [|exact L1]); apply rd_ext; intros y Hy.
      * apply wr_out. subst dst. unfold len in L4. lia.
      * apply (Out (blk x)); [apply DS; apply in_map; exact L2|unfold len in L4; lia].
    + destruct L2 as [L2|[(L2 & L3 & L4 & L5)|L2]]; [left; exact L2|right; left|right; right; exact L2]. split; [exact L2|]. split; [exact L3|]. lia.
  - unfold located. cbn [b' setHead head headOffset headLast]. split; [apply rd_wr|]. right. left. split; [exact Hh|]. unfold dst. lia.
Qed.

Definition noHead (b : buffer) : buffer := setHead b (0, 0) 0 0 (headLast b).
(** Sealing the head chunk. *)
Lemma seal_ok b p m ow oth fr l pos b1 m1 :
  BInv b p m ow oth fr l -> snd (head b) <> 0 -> pos < 2 ^ 64 -> sealHead b m pos = (b1, m1) ->
  let l1 := l ++ [(fst (head b), pos, snd (head b))] in
  BInv (noHead b1) p m1 ow oth fr l1 /\ (forall r, located b m l r -> posOf r < pos -> located (noHead b1) m1 l1 r) /\ Forall (fun x => sameIn x m m1) oth /\
  keepResident b1 = keepResident b.
Proof.
  intros I Hh Hp E l1. pose proof (bi_pair _ _ _ _ _ _ _ I) as P. assert (HB : headBlocks b = [head b]) by (unfold headBlocks; rewrite (proj2 (N.eqb_neq _ _) Hh); reflexivity).
  destruct (bi_head _ _ _ _ _ _ _ I Hh) as (S1 & S2 & S3). rewrite HB in P. apply pairwise_app in P. destruct P as (P1 & P2 & P3). cbn [app] in P2. apply pairwise_cons in P2. destruct P2 as [P2 P4]. rewrite Forall_forall in P2.
  assert (DS : forall x, In x (map blk l) -> disjoint x (head b)) by (intros x Hx; apply P3; [exact Hx|left; reflexivity]).
  assert (In24 : forall x, In x l -> 24 <= snd (blk x)).
  { intros x Hx. pose proof (proj1 (Forall_forall _ _) (bi_sizes _ _ _ _ _ _ _ I) (blk x) ltac:(apply in_or_app; left; apply in_map; exact Hx)) as Z. pose proof (bi_24 _ _ _ _ _ _ _ I). unfold okSize in Z. lia. }
  assert (Hh24 : 24 <= snd (head b)) by lia.
  destruct (bi_pos _ _ _ _ _ _ _ (head b) I) as (Q1 & Q2 & Q3). { apply in_or_app. left. apply in_or_app. right. rewrite HB. left. reflexivity. }
  set (hm := writeHeader m (fst (head b)) 0 pos (headSize b)).
  destruct (writeHeader_read m (fst (head b)) 0 pos (headSize b) ltac:(lia) Hp ltac:(lia)) as (R1 & R2 & R3). fold hm in R1, R2, R3.
  assert (Oh : forall x, ~ (fst (head b) <= x < fst (head b) + 24) -> hm x = m x) by (intros x Hx; apply writeHeader_out; lia).
  assert (T : l = [] \/ exists l0 t, l = l0 ++ [t]) by (destruct l using rev_ind; eauto).
  assert (Main : schain m1 (sealedHead b1) l1 /\ sealedTail b1 = fst (head b) /\ keepResident b1 = keepResident b /\ bChunkBytes b1 = bChunkBytes b /\
     (forall x, ~ (fst (head b) <= x < fst (head b) + 24) -> (forall y, In y l -> ~ (fst (blk y) <= x < fst (blk y) + 24)) -> m1 x = m x)).
  { unfold sealHead in E. fold hm in E. pose proof (bi_tail _ _ _ _ _ _ _ I) as Tl. pose proof (bi_chain _ _ _ _ _ _ _ I) as Ch. destruct T as [El|(l0 & [[ta tt] ts] & El)]; unfold l1; rewrite El in *.
    - rewrite Tl in E. cbn [negb N.eqb] in E. injection E as <- <-. cbn [setSealed sealedHead sealedTail keepResident bChunkBytes app schain].
      split; [|split; [reflexivity|split; [reflexivity|split; [reflexivity|]]]].
      + split; [reflexivity|]. split; [lia|]. split; [exact R2|]. split; [rewrite <- S1; exact R3|exact R1].
      + intros x H _. apply Oh. exact H.
    - assert (Tt : sealedTail b = ta) by (rewrite Tl; exact (tail_snoc l0 (ta, tt, ts))).
      assert (It : In (ta, tt, ts) (l0 ++ [(ta, tt, ts)])) by (apply in_or_app; right; left; reflexivity).
      pose proof (DS (blk (ta, tt, ts)) ltac:(apply in_map; exact It)) as Dt. cbn [blk fst snd] in Dt. unfold disjoint in Dt. cbn [blk fst snd] in Dt.
      pose proof (In24 _ It) as T24. cbn [blk fst snd] in T24.
      destruct (bi_pos _ _ _ _ _ _ _ (blk (ta, tt, ts)) I) as (U1 & U2 & U3). { apply in_or_app. left. apply in_or_app. left. apply in_map. exact It. }
      cbn [blk fst snd] in U1, U2, U3.
      assert (Tt64 : tt < 2 ^ 64) by (pose proof (proj1 (Forall_forall _ _) (bi_thr _ _ _ _ _ _ _ I) (ta, tt, ts)) as X; exact (X It)).
      rewrite Tt, (proj2 (N.eqb_neq ta 0)) in E by lia. cbn [negb] in E.
      assert (Sh : hdrSame m hm ta) by (intros x Hx; apply Oh; lia). destruct (hdr_same _ _ _ Sh) as (_ & V2 & V3).
      assert (Ct : hThreshold m ta = tt /\ hSize m ta = ts). { clear - Ch. revert Ch. generalize (sealedHead b). induction l0 as [|[[a t] s] l0 IH]; intros h Ch; cbn [app schain] in Ch; [tauto|]. apply (IH _ (proj2 (proj2 (proj2 (proj2 Ch))))). }
      destruct Ct as [Ct1 Ct2]. rewrite V2, V3, Ct1, Ct2 in E. injection E as <- <-. cbn [setSealed sealedHead sealedTail keepResident bChunkBytes].
      destruct (writeHeader_read hm ta (fst (head b)) tt ts ltac:(lia) Tt64 ltac:(lia)) as (W1 & W2 & W3). set (fm := writeHeader hm ta (fst (head b)) tt ts) in *.
      assert (Of : forall x, ~ (ta <= x < ta + 24) -> fm x = hm x) by (intros x Hx; apply writeHeader_out; lia).
      assert (Sf : hdrSame hm fm (fst (head b))) by (intros x Hx; apply Of; lia). destruct (hdr_same _ _ _ Sf) as (X1 & X2 & X3).
      assert (D0 : forall y, In y l0 -> disjoint (blk y) (ta, ts) /\ disjoint (blk y) (head b)).
      { intros y Hy. split; [|apply DS; apply in_map; apply in_or_app; left; exact Hy]. rewrite map_app in P1. apply pairwise_app in P1. destruct P1 as (_ & _ & P1). apply P1; [apply in_map; exact Hy|left; reflexivity]. }
      split; [|repeat split].
      + rewrite <- app_assoc. cbn [app]. apply (schain_snoc m fm); try assumption; try lia.
        intros y Hy x Hx. destruct (D0 y Hy) as [D1 D2]. unfold disjoint in D1, D2. cbn [fst snd] in D1. pose proof (In24 y ltac:(apply in_or_app; left; exact Hy)). rewrite Of by lia. apply Oh. lia.
      + intros x H1 H2. rewrite Of by (specialize (H2 _ It); cbn [blk fst snd] in H2; exact H2). apply Oh. exact H1. }
  destruct Main as (M1 & M2 & M3 & M4 & M5).
  assert (Bl : map blk l1 = map blk l ++ [head b]) by (unfold l1; rewrite map_app; cbn [map blk fst snd]; destruct (head b); reflexivity).
  assert (Pm : Permutation (bheld b l ++ oth) (bheld (noHead b1) l1 ++ oth)) by (unfold bheld; rewrite Bl, HB; cbn [headBlocks noHead setHead head snd N.eqb]; rewrite app_nil_r; reflexivity).
  assert (Hin : forall z, In z (map blk l ++ [head b]) -> 24 <= snd z). { intros z Hz. apply in_app_or in Hz. destruct Hz as [Hz|[ <- |[]]]; [|exact Hh24]. apply in_map_iff in Hz. destruct Hz as (y & <- & Hy). auto. }
  assert (Sm : Forall (fun x => sameIn x m m1) oth).
  { rewrite Forall_forall. intros x Hx a Ha. apply M5.
    - specialize (P2 x Hx). unfold disjoint in P2. lia.
    - intros y Hy. pose proof (P3 (blk y) x ltac:(apply in_map; exact Hy) ltac:(right; exact Hx)) as D. unfold disjoint in D. specialize (In24 y Hy). lia. }
  split; [|split; [|split; [exact Sm|exact M3]]].
  - constructor.
    + eapply pi_held_perm; [|exact Pm]. apply (pi_mem _ _ _ _ _ (bi_pool _ _ _ _ _ _ _ I)). intros f x Hf Hx. pose proof (bi_24 _ _ _ _ _ _ _ I) as H24.
      apply M5.
      * pose proof (pi_held_free _ _ _ _ _ (bi_pool _ _ _ _ _ _ _ I) (head b) f ltac:(apply in_or_app; left; apply in_or_app; right; rewrite HB; left; reflexivity) Hf) as D. unfold disjoint, std in D. cbn [fst snd] in D. lia.
      * intros y Hy. pose proof (pi_held_free _ _ _ _ _ (bi_pool _ _ _ _ _ _ _ I) (blk y) f ltac:(apply in_or_app; left; apply in_or_app; left; apply in_map; exact Hy) Hf) as D. unfold disjoint, std in D. cbn [fst snd] in D. specialize (In24 y Hy). lia.
    + cbn [noHead setHead bChunkBytes]. rewrite M4. exact (bi_cb _ _ _ _ _ _ _ I).
    + exact (bi_24 _ _ _ _ _ _ _ I).
    + exact M1.
    + cbn [noHead setHead sealedTail]. rewrite M2. unfold l1. symmetry. apply tail_snoc.
    + unfold l1. apply Forall_app. split; [exact (bi_thr _ _ _ _ _ _ _ I)|]. constructor; [exact Hp|constructor].
    + unfold bheld. cbn [headBlocks noHead setHead head snd N.eqb]. rewrite app_nil_r, Bl. pose proof (bi_sizes _ _ _ _ _ _ _ I) as Z. unfold bheld in Z. rewrite HB in Z. exact Z.
    + cbn [noHead setHead head snd]. congruence.
  - intros [[q a] d] [L1 L2] Hq. unfold posOf in Hq. cbn [fst] in Hq. unfold located. cbn [noHead setHead head headOffset headLast fst snd].
    assert (Same : forall z, In z (map blk l ++ [head b]) -> forall x, fst z + 24 <= x < fst z + snd z -> m1 x = m x).
    { intros z Hz x Hx. assert (Dz : forall w, In w (map blk l ++ [head b]) -> ~ (fst w <= x < fst w + 24)).
      { intros w Hw. assert (Pz : pairwise (map blk l ++ [head b])) by (apply pairwise_app; split; [exact P1|split; [constructor; constructor|intros u v Hu [ <- |[]]; apply DS; exact Hu]]).
        destruct (block_dec w z) as [ -> |Nz]; [lia|]. assert (D : disjoint w z).
        { clear - Pz Hw Hz Nz. induction (map blk l ++ [head b]) as [|y r IH]; [destruct Hw|]. apply pairwise_cons in Pz. destruct Pz as [Pz1 Pz2]. rewrite Forall_forall in Pz1. destruct Hw as [ -> |Hw], Hz as [ -> |Hz]; [congruence|apply Pz1; exact Hz|apply disjoint_sym; apply Pz1; exact Hw|auto]. }
        pose proof (Hin w Hw). unfold disjoint in D. lia. }
      apply M5; [apply Dz; apply in_or_app; right; left; reflexivity|]. intros y Hy. apply Dz. apply in_or_app. left. apply in_map. exact Hy. }
    split.
    + destruct L2 as [ -> |[(L2 & L3 & L4 & L5)|(x & L2 & L3 & L4 & L5)]]; [reflexivity|..]; (etransitivity; [|exact L1]); apply rd_ext; intros y Hy; unfold len in L4.
      * apply (Same (head b)); [apply in_or_app; right; left; reflexivity|lia].
      * apply (Same (blk x)); [apply in_or_app; left; apply in_map; exact L2|lia].
    + destruct L2 as [L2|[(L2 & L3 & L4 & L5)|(x & L2 & L3 & L4 & L5)]]; [left; exact L2|right; right; exists (fst (head b), pos, snd (head b))|right; right; exists x].
      * cbn [blk fst snd]. split; [apply in_or_app; right; left; reflexivity|]. lia.
      * split; [apply in_or_app; left; exact L2|]. auto.
Qed.

(** Replacing an empty head. *)
Lemma empty_ok b p m ow oth fr l off sz lst : BInv b p m ow oth fr l -> snd (head b) = 0 -> BInv (setHead b (0, 0) off sz lst) p m ow oth fr l.
Proof.
  intros I H. assert (B : bheld (setHead b (0, 0) off sz lst) l = bheld b l) by (unfold bheld, headBlocks; rewrite H; reflexivity). destruct I. constructor; try assumption; [rewrite B; assumption..|]. cbn [setHead head snd]. congruence.
Qed.
Lemma empty_located b m l off sz lst r : snd (head b) = 0 -> located b m l r -> located (setHead b (0, 0) off sz lst) m l r.
Proof. intros H. destruct r as [[pos a] d]. unfold located. cbn [setHead head snd fst]. intros [L1 L2]. split; [exact L1|]. tauto. Qed.
Lemma taken_ok b p m ow oth fr l p' ow' fr' c lst : BInv b p m ow oth fr l -> snd (head b) = 0 -> PInv p' m ow' (c :: bheld b l ++ oth) fr' -> chunkBytes p' = chunkBytes p -> chunkBytes p <= snd c ->
  BInv (setHead b c 24 (snd c) lst) p' m ow' oth fr' l /\ (forall r, located b m l r -> located (setHead b c 24 (snd c) lst) m l r).
Proof.
  intros I H P C Z. pose proof (bi_24 _ _ _ _ _ _ _ I) as H24. assert (Nz : snd c <> 0) by lia.
  assert (B0 : bheld b l = map blk l) by (unfold bheld, headBlocks; rewrite H; apply app_nil_r).
  assert (B : bheld (setHead b c 24 (snd c) lst) l = map blk l ++ [c]) by (unfold bheld, headBlocks; cbn [setHead head]; rewrite (proj2 (N.eqb_neq _ _) Nz); reflexivity).
  split.
  - constructor.
    + eapply pi_held_perm; [exact P|]. rewrite B, B0, <- app_assoc. cbn [app]. apply Permutation_middle.
    + rewrite C. exact (bi_cb _ _ _ _ _ _ _ I).
    + rewrite C. exact H24.
    + exact (bi_chain _ _ _ _ _ _ _ I).
    + exact (bi_tail _ _ _ _ _ _ _ I).
    + exact (bi_thr _ _ _ _ _ _ _ I).
    + rewrite B, C. pose proof (bi_sizes _ _ _ _ _ _ _ I) as S. rewrite B0 in S. apply Forall_app. split; [exact S|]. constructor; [exact Z|constructor].
    + intros _. cbn [setHead head headSize headOffset]. lia.
  - intros [[pos a] d]. unfold located. cbn [setHead head]. intros [L1 [L2|[(L2 & _)|L2]]]; [|congruence|]; (split; [exact L1|]); [left; exact L2|right; right; exact L2].
Qed.

Lemma serialise_ok b p m ow oth fr l blob pos up b' p' m' c cl :
  BInv b p m ow oth fr l -> pos < 2 ^ 64 -> (forall n, n = chunkBytes p \/ n = 24 + len blob -> goodAnswer up n ow) ->
  serialiseBlob b p m blob pos up = (b', p', m', c, cl) ->
  exists fr' l', BInv b' p' m' (upstream ow cl) oth fr' l' /\ callsOk ow oth cl /\ chunkBytes p' = chunkBytes p /\ maxChunks p' = maxChunks p /\ keepResident b' = keepResident b /\
    (forall r, located b m l r -> posOf r < pos -> located b' m' l' r) /\ (snd c = len blob -> located b' m' l' (pos, fst c, blob)) /\ Forall (fun x => sameIn x m m') oth /\
    (c = (0, 0) \/ snd c = len blob) /\ (forall x, In x l' -> In x l \/ snd (fst x) = pos) /\ (headBlocks b' = [] \/ headLast b' = pos).
Proof.
  intros I Hp G E. unfold serialiseBlob in E. cbv zeta in E.
  destruct ((snd (head b) =? 0) || (snd (head b) <? headOffset b + len blob)) eqn:E0.
  2:{ apply orb_false_iff in E0. destruct E0 as [E0 E1]. apply N.eqb_neq in E0. apply N.ltb_ge in E1. injection E as <- <- <- <- <-.
      destruct (write_ok b p m ow oth fr l blob pos I E0 E1) as (W1 & W2 & W3 & W4). exists fr, l. cbn [upstream callsOk fst snd setHead keepResident].
      split; [exact W1|]. split; [exact Logic.I|]. split; [reflexivity|]. split; [reflexivity|]. split; [reflexivity|]. split; [exact W2|]. split; [intros _; exact W3|]. split; [exact W4|]. split; [right; reflexivity|]. split; [auto|right; reflexivity]. }
  clear E0.
  assert (Sl : exists b1 m1 l1, (if negb (snd (head b) =? 0) then sealHead b m pos else (b, m)) = (b1, m1) /\ BInv (noHead b1) p m1 ow oth fr l1 /\
     (forall r, located b m l r -> posOf r < pos -> located (noHead b1) m1 l1 r) /\ Forall (fun x => sameIn x m m1) oth /\ keepResident b1 = keepResident b /\ (forall x, In x l1 -> In x l \/ snd (fst x) = pos)).
  { destruct (snd (head b) =? 0) eqn:E1; cbn [negb].
    - apply N.eqb_eq in E1. exists b, m, l. split; [reflexivity|]. split; [apply empty_ok; assumption|]. split; [intros r Lr _; apply empty_located; assumption|]. split; [|split; [reflexivity|auto]]. rewrite Forall_forall. intros x _ a _. reflexivity.
    - apply N.eqb_neq in E1. destruct (sealHead b m pos) as [b1 m1] eqn:Es. destruct (seal_ok b p m ow oth fr l pos b1 m1 I E1 Hp Es) as (S1 & S2 & S3 & S4). exists b1, m1, (l ++ [(fst (head b), pos, snd (head b))]). split; [reflexivity|]. split; [exact S1|]. split; [exact S2|]. split; [exact S3|]. split; [exact S4|]. intros x Hx. apply in_app_or in Hx. destruct Hx as [Hx|[ <- |[]]]; [left; exact Hx|right; reflexivity]. }
  destruct Sl as (b1 & m1 & l1 & Es & I1 & L1 & Sm1 & K1 & T1). rewrite Es in E.
  pose proof (bi_24 _ _ _ _ _ _ _ I) as H24. pose proof (bi_cb _ _ _ _ _ _ _ I) as Hcb.
  assert (Sf : usub (bChunkBytes b) headerSize = chunkBytes p - 24) by (unfold usub, headerSize; rewrite Hcb, (proj2 (N.leb_le _ _) H24); reflexivity). rewrite Sf in E.
  (* the new head chunk *)
  set (R := if chunkBytes p - 24 <? len blob then acquireOversized p (headerSize + len blob) up else acquire p m1 up) in E.
  assert (A : exists p1 c1 l2, R = (p1, c1, l2) /\ callsOk ow oth l2 /\ chunkBytes p1 = chunkBytes p /\ maxChunks p1 = maxChunks p /\
     ((c1 = (0, 0) /\ p1 = p /\ l2 = []) \/ (exists fr', PInv p1 m1 (upstream ow l2) (c1 :: bheld (noHead b1) l1 ++ oth) fr' /\ chunkBytes p <= snd c1 /\ 24 + len blob <= snd c1))).
  { unfold R. destruct (chunkBytes p - 24 <? len blob) eqn:Eb.
    - apply N.ltb_lt in Eb. destruct (acquireOversized p (headerSize + len blob) up) as [[p1 c1] l2] eqn:Ea. exists p1, c1, l2. split; [reflexivity|].
      destruct (do_acquireBig _ _ _ _ _ (bi_pool _ _ _ _ _ _ _ I1) _ _ _ _ _ Ea ltac:(unfold headerSize; lia) (G _ (or_intror eq_refl))) as [(-> & -> & -> & _)|(-> & -> & Z1 & Z2 & I2)].
      + split; [exact Logic.I|]. split; [reflexivity|]. split; [reflexivity|]. left. auto.
      + split; [exact Logic.I|]. split; [exact Z1|]. split; [exact Z2|]. right. exists fr. split; [exact I2|]. cbn [snd]. unfold headerSize. lia.
    - apply N.ltb_ge in Eb. destruct (acquire p m1 up) as [[p1 c1] l2] eqn:Ea. exists p1, c1, l2. split; [reflexivity|].
      destruct (do_acquire _ _ _ _ _ (bi_pool _ _ _ _ _ _ _ I1) _ _ _ _ Ea (G _ (or_introl eq_refl))) as [(-> & -> & -> & _)|(fr' & Z0 & Z1 & Z2 & I2 & _ & Z3)].
      + split; [exact Logic.I|]. split; [reflexivity|]. split; [reflexivity|]. left. auto.
      + split; [destruct Z3 as [[_ ->]|(_ & _ & _ & ->)]; exact Logic.I|]. split; [exact Z1|]. split; [exact Z2|]. right. exists fr'. split; [exact I2|]. lia. }
  destruct A as (p1 & c1 & l2 & Er & C1 & Z1 & Z2 & A). rewrite Er in E.
  destruct A as [(-> & -> & ->)|(fr' & P1 & Zc & Zn)].
  - cbn [snd N.eqb] in E. injection E as <- <- <- <- <-. exists fr, l1. cbn [upstream callsOk fst snd].
    split; [exact (empty_ok (noHead b1) _ _ _ _ _ _ headerSize 0 (headLast b1) I1 eq_refl)|]. split; [exact Logic.I|]. split; [reflexivity|]. split; [reflexivity|]. split; [exact K1|].
    split; [intros r Lr Hr; exact (empty_located (noHead b1) m1 l1 headerSize 0 (headLast b1) r eq_refl (L1 r Lr Hr))|]. split; [|split; [exact Sm1|split; [left; reflexivity|split; [exact T1|left; reflexivity]]]].
    intros H0. unfold located. assert (Hn : blob = []) by (destruct blob; [reflexivity|unfold len in H0; cbn [length] in H0; lia]). subst blob. split; [reflexivity|left; reflexivity].
  - rewrite (proj2 (N.eqb_neq (snd c1) 0)) in E by lia. injection E as <- <- <- <- <-.
    destruct (taken_ok (noHead b1) p m1 ow oth fr l1 p1 (upstream ow l2) fr' c1 (headLast b1) I1 eq_refl P1 Z1 Zc) as [I2 L2].
    change (setHead (noHead b1) c1 24 (snd c1) (headLast b1)) with (setHead b1 c1 headerSize (snd c1) (headLast b1)) in I2, L2. set (b2 := setHead b1 c1 headerSize (snd c1) (headLast b1)) in *.
    destruct (write_ok b2 p1 m1 (upstream ow l2) oth fr' l1 blob pos I2 ltac:(cbn [b2 setHead head]; lia) ltac:(cbn [b2 setHead head headOffset]; unfold headerSize; lia)) as (W1 & W2 & W3 & W4).
    exists fr', l1. split; [exact W1|]. split; [exact C1|]. split; [exact Z1|]. split; [exact Z2|]. split; [exact K1|]. split; [intros r Lr Hr; apply W2; [apply L2, L1; assumption|exact Hr]|]. split; [intros _; exact W3|].
    split; [|split; [right; reflexivity|split; [exact T1|right; reflexivity]]]. rewrite Forall_forall in *. intros x Hx a Ha. etransitivity; [exact (W4 x Hx a Ha)|exact (Sm1 x Hx a Ha)].
Qed.

(** Releasing sealed chunks. *)
Lemma drain_ok minPos oth : forall l b p m ow fr fuel, BInv b p m ow oth fr l -> (length l <= fuel)%nat ->
  exists b' p' m' cl fr' l1 l2, drain fuel minPos b p m = Some (b', p', m', cl) /\ l = l1 ++ l2 /\ BInv b' p' m' (upstream ow cl) oth fr' l2 /\ callsOk ow oth cl /\
    chunkBytes p' = chunkBytes p /\ maxChunks p' = maxChunks p /\ keepResident b' = keepResident b /\ head b' = head b /\ headLast b' = headLast b /\
    (forall r, located b m l r -> minPos <= posOf r -> located b' m' l2 r) /\ Forall (fun x => sameIn x m m') oth /\
    Forall (fun x => snd (fst x) <= minPos) l1 /\ (forall x r, l2 = x :: r -> minPos < snd (fst x)).
Proof.
  induction l as [|[[a t] s] l IH]; intros b p m ow fr fuel I F.
  - pose proof (bi_chain _ _ _ _ _ _ _ I) as C. cbn [schain] in C. exists b, p, m, [], fr, [], []. split; [destruct fuel; cbn [drain]; rewrite C; reflexivity|]. cbn [app upstream callsOk].
    split; [reflexivity|]. split; [exact I|]. repeat (split; [reflexivity || exact Logic.I|]). split; [tauto|]. split; [rewrite Forall_forall; intros x _ y _; reflexivity|]. split; [constructor|discriminate].
  - pose proof (bi_chain _ _ _ _ _ _ _ I) as C. cbn [schain] in C. destruct C as (C1 & C2 & C3 & C4 & C5). destruct fuel as [|fuel]; [cbn [length] in F; lia|]. cbn [drain]. rewrite C1, (proj2 (N.eqb_neq a 0) C2), C3.
    destruct (minPos <? t) eqn:Et.
    + apply N.ltb_lt in Et. exists b, p, m, [], fr, [], ((a, t, s) :: l). cbn [app upstream callsOk]. split; [reflexivity|]. split; [reflexivity|]. split; [exact I|]. repeat (split; [reflexivity || exact Logic.I|]).
      split; [tauto|]. split; [rewrite Forall_forall; intros x _ y _; reflexivity|]. split; [constructor|]. intros x r H. injection H as <- _. exact Et.
    + apply N.ltb_ge in Et. rewrite C4. set (b1 := setSealed b (hNext m a) (if hNext m a =? 0 then 0 else sealedTail b)).
      destruct (releaseChunk b p m (a, s)) as [[p1 m1] cl1] eqn:Er.
      pose proof (proj1 (Forall_forall _ _) (bi_sizes _ _ _ _ _ _ _ I) (a, s) ltac:(left; reflexivity)) as Zs. unfold okSize in Zs. cbn [snd] in Zs. pose proof (bi_24 _ _ _ _ _ _ _ I) as H24.
      assert (Pm : Permutation (bheld b ((a, t, s) :: l) ++ oth) ((a, s) :: bheld b1 l ++ oth)) by reflexivity.
      destruct (releaseChunk_ok b p m ow _ _ fr (a, s) p1 m1 cl1 (bi_pool _ _ _ _ _ _ _ I) Pm (bi_cb _ _ _ _ _ _ _ I) Zs Er) as (fr1 & I1 & Z1 & Z2 & K1 & O1). cbn [fst] in O1.
      pose proof (pi_pair' _ _ _ _ _ (bi_pool _ _ _ _ _ _ _ I)) as PW. apply pairwise_app in PW. destruct PW as (PW & _). apply (pairwise_perm _ _ Pm) in PW. apply pairwise_cons in PW. destruct PW as [PW _]. rewrite Forall_forall in PW.
      assert (Same : forall x, In x (bheld b1 l ++ oth) -> sameIn x m m1) by (intros x Hx y Hy; apply O1; specialize (PW x Hx); unfold disjoint in PW; cbn [fst snd] in PW; lia).
      assert (I1' : BInv b1 p1 m1 (upstream ow cl1) oth fr1 l).
      { constructor.
        - exact I1.
        - rewrite Z1. exact (bi_cb _ _ _ _ _ _ _ I).
        - rewrite Z1. exact H24.
        - apply (schain_ext m); [|exact C5]. intros x Hx y Hy. assert (Hb : In (blk x) (bheld b1 l)) by (apply in_or_app; left; apply in_map; exact Hx).
          apply (Same (blk x)); [apply in_or_app; left; exact Hb|]. pose proof (proj1 (Forall_forall _ _) (bi_sizes _ _ _ _ _ _ _ I) (blk x) ltac:(right; exact Hb)) as Zx. unfold okSize in Zx. lia.
        - cbn [b1 setSealed sealedTail]. pose proof (bi_tail _ _ _ _ _ _ _ I) as T. destruct l as [|[[a2 t2] s2] l']; cbn [schain] in C5.
          + rewrite C5. reflexivity.
          + destruct C5 as (D1 & D2 & _). rewrite D1, (proj2 (N.eqb_neq a2 0) D2). exact T.
        - pose proof (bi_thr _ _ _ _ _ _ _ I) as T. inversion T. assumption.
        - rewrite Z1. pose proof (bi_sizes _ _ _ _ _ _ _ I) as T. inversion T. assumption.
        - exact (bi_head _ _ _ _ _ _ _ I). }
      destruct (IH b1 p1 m1 (upstream ow cl1) fr1 fuel I1' ltac:(cbn [length] in F; lia)) as (b' & p' & m' & cl & fr' & l1 & l2 & E & El & I' & K' & Y1 & Y2 & Y3 & Y4 & Y5 & Y6 & Y7 & Y8 & Y9).
      rewrite E. exists b', p', m', (cl1 ++ cl), fr', ((a, t, s) :: l1), l2. split; [reflexivity|]. split; [cbn [app]; rewrite El; reflexivity|]. rewrite upstream_app. split; [exact I'|].
      split; [apply callsOk_app; split; [eapply callsOk_incl; [|exact K1]; apply incl_appr, incl_refl|exact K']|]. split; [congruence|]. split; [congruence|]. split; [exact Y3|]. split; [exact Y4|]. split; [exact Y5|].
      split; [|split; [|split; [constructor; [exact Et|exact Y8]|exact Y9]]].
      * intros r Lr Hr. apply Y6; [|exact Hr]. apply (located_mem b1 m m1).
        -- intros x Hx. apply Same. apply in_or_app. left. exact Hx.
        -- intros Hn. apply (bi_head _ _ _ _ _ _ _ I Hn).
        -- destruct r as [[pos ad] d]. unfold posOf in Hr. cbn [fst] in Hr. destruct Lr as [L1 L2]. split; [exact L1|]. destruct L2 as [L2|[L2|(x & [ <- |L2] & L3 & L4 & L5)]]; [left; exact L2|right; left; exact L2| |right; right; exists x; auto].
           cbn [fst snd] in L5. lia.
      * rewrite Forall_forall in *. intros x Hx y Hy. etransitivity; [exact (Y7 x Hx y Hy)|]. apply (Same x); [apply in_or_app; right; exact Hx|exact Hy].
Qed.

Lemma house_ok deep minPos oth l b p m ow fr fuel : BInv b p m ow oth fr l -> (length l <= fuel)%nat ->
  exists b' p' m' cl fr' l', houseKeeping fuel deep minPos b p m = Some (b', p', m', cl) /\ BInv b' p' m' (upstream ow cl) oth fr' l' /\ callsOk ow oth cl /\
    chunkBytes p' = chunkBytes p /\ maxChunks p' = maxChunks p /\ keepResident b' = keepResident b /\
    (forall r, located b m l r -> minPos <= posOf r -> located b' m' l' r) /\ Forall (fun x => sameIn x m m') oth /\ incl l' l /\ (headBlocks b' = headBlocks b \/ headBlocks b' = []) /\ headLast b' = headLast b /\
    ((forall x, In x l -> snd (fst x) <= minPos) -> (headBlocks b <> [] -> headLast b < minPos) -> bheld b' l' = []).
Proof.
  intros I F. destruct (drain_ok minPos oth l b p m ow fr fuel I F) as (b1 & p1 & m1 & cl1 & fr1 & la & lb & E & El & I1 & K1 & Y1 & Y2 & Y3 & Y4 & Y5 & Y6 & Y7 & Y8 & Y9).
  unfold houseKeeping. rewrite E. clear E.
  assert (H2 : exists b2 p2 m2 cl2 fr2, (if (sealedHead b1 =? 0) && negb (snd (head b1) =? 0) && (headLast b1 <? minPos)
        then let '(p2, m2, l2) := releaseChunk b1 p1 m1 (head b1) in (setHead b1 (0, 0) 0 0 (headLast b1), p2, m2, l2) else (b1, p1, m1, [])) = (b2, p2, m2, cl2) /\
     BInv b2 p2 m2 (upstream (upstream ow cl1) cl2) oth fr2 lb /\ callsOk (upstream ow cl1) oth cl2 /\ chunkBytes p2 = chunkBytes p1 /\ maxChunks p2 = maxChunks p1 /\ keepResident b2 = keepResident b1 /\ (headBlocks b2 = headBlocks b1 \/ headBlocks b2 = []) /\ headLast b2 = headLast b1 /\
     (forall r, located b1 m1 lb r -> minPos <= posOf r -> located b2 m2 lb r) /\ Forall (fun x => sameIn x m1 m2) oth /\
     (lb = [] -> (headBlocks b1 <> [] -> headLast b1 < minPos) -> bheld b2 lb = [])).
  { destruct ((sealedHead b1 =? 0) && negb (snd (head b1) =? 0) && (headLast b1 <? minPos)) eqn:Ec.
    - apply andb_true_iff in Ec. destruct Ec as [Ec Ec3]. apply andb_true_iff in Ec. destruct Ec as [Ec1 Ec2]. apply negb_true_iff, N.eqb_neq in Ec2. apply N.eqb_eq in Ec1. apply N.ltb_lt in Ec3.
      assert (Hl : lb = []). { destruct lb as [|[[a t] s] lb]; [reflexivity|]. exfalso. pose proof (bi_chain _ _ _ _ _ _ _ I1) as C. cbn [schain] in C. destruct C as (C1 & C2 & _). congruence. }
      subst lb. destruct (releaseChunk b1 p1 m1 (head b1)) as [[p2 m2] cl2] eqn:Er.
      assert (HB : headBlocks b1 = [head b1]) by (unfold headBlocks; rewrite (proj2 (N.eqb_neq _ _) Ec2); reflexivity).
      assert (Pm : Permutation (bheld b1 [] ++ oth) (head b1 :: oth)) by (unfold bheld; rewrite HB; reflexivity).
      pose proof (proj1 (Forall_forall _ _) (bi_sizes _ _ _ _ _ _ _ I1) (head b1) ltac:(unfold bheld; rewrite HB; left; reflexivity)) as Zs. unfold okSize in Zs. pose proof (bi_24 _ _ _ _ _ _ _ I1) as H24.
      destruct (releaseChunk_ok b1 p1 m1 _ _ _ fr1 (head b1) p2 m2 cl2 (bi_pool _ _ _ _ _ _ _ I1) Pm (bi_cb _ _ _ _ _ _ _ I1) Zs Er) as (fr2 & I2 & Z1 & Z2 & K2 & O2).
      pose proof (bi_pair _ _ _ _ _ _ _ I1) as PW. rewrite HB in PW. cbn [map app] in PW. apply pairwise_cons in PW. destruct PW as [PW _]. rewrite Forall_forall in PW.
      eexists _, p2, m2, cl2, fr2. split; [reflexivity|]. split; [|split; [exact K2|split; [exact Z1|split; [exact Z2|split; [reflexivity|split; [right; reflexivity|split; [reflexivity|split; [|split; [|reflexivity]]]]]]]]].
      + constructor; cbn [setHead bChunkBytes sealedHead sealedTail].
        * exact I2.
        * rewrite Z1. exact (bi_cb _ _ _ _ _ _ _ I1).
        * rewrite Z1. exact H24.
        * exact Ec1.
        * exact (bi_tail _ _ _ _ _ _ _ I1).
        * constructor.
        * constructor.
        * intros X. exfalso. apply X. reflexivity.
      + intros [[pos ad] d] [L1 L2] Hr. unfold posOf in Hr. cbn [fst] in Hr. destruct L2 as [ -> |[(_ & _ & _ & L2)|(x & [] & _)]]; [split; [reflexivity|left; reflexivity]|lia].
      + rewrite Forall_forall. intros x Hx y Hy. apply O2. specialize (PW x Hx). unfold disjoint in PW. lia.
    - exists b1, p1, m1, [], fr1. split; [reflexivity|]. cbn [upstream callsOk]. split; [exact I1|]. split; [exact Logic.I|]. split; [reflexivity|]. split; [reflexivity|]. split; [reflexivity|]. split; [left; reflexivity|]. split; [reflexivity|]. split; [tauto|]. split; [rewrite Forall_forall; intros x _ y _; reflexivity|].
      intros -> Hm. pose proof (bi_chain _ _ _ _ _ _ _ I1) as C. cbn [schain] in C. unfold bheld. destruct (headBlocks b1) as [|x xs] eqn:Eh; [reflexivity|]. exfalso. specialize (Hm ltac:(discriminate)).
      unfold headBlocks in Eh. destruct (snd (head b1) =? 0); [discriminate|]. rewrite C, (proj2 (N.ltb_lt _ _) Hm) in Ec. discriminate. }
  destruct H2 as (b2 & p2 & m2 & cl2 & fr2 & E2 & I2 & K2 & X1 & X2 & X3 & Xa & Xb & X4 & X5 & X6). rewrite E2.
  assert (Inc : incl lb l) by (rewrite El; apply incl_appr, incl_refl). assert (Hd : headBlocks b2 = headBlocks b \/ headBlocks b2 = []) by (destruct Xa as [Xa|Xa]; [left; rewrite Xa; unfold headBlocks; rewrite Y4; reflexivity|right; exact Xa]). assert (Hll : headLast b2 = headLast b) by congruence.
  assert (Mem : Forall (fun x => sameIn x m m2) oth) by (rewrite Forall_forall in *; intros x Hx y Hy; etransitivity; [exact (X5 x Hx y Hy)|exact (Y7 x Hx y Hy)]).
  assert (Empty : (forall x, In x l -> snd (fst x) <= minPos) -> (headBlocks b <> [] -> headLast b < minPos) -> bheld b2 lb = []).
  { intros Q1 Q2. apply X6; [|rewrite Y5; unfold headBlocks; rewrite Y4; exact Q2]. destruct lb as [|x lb]; [reflexivity|]. exfalso. specialize (Y9 x lb eq_refl). specialize (Q1 x). rewrite El in Q1. specialize (Q1 ltac:(apply in_or_app; right; left; reflexivity)). lia. }
  destruct deep.
  - destruct (do_reclaim (keepResident b) _ _ _ _ _ (bi_pool _ _ _ _ _ _ _ I2)) as (p3 & cl3 & fr3 & E3 & K3 & W1 & W2 & I3 & _). rewrite E3.
    exists b2, p3, m2, (cl1 ++ cl2 ++ cl3), fr3, lb. split; [reflexivity|]. rewrite !upstream_app, !callsOk_app. split; [|split; [|split; [congruence|split; [congruence|split; [congruence|split; [|split; [exact Mem|split; [exact Inc|split; [exact Hd|split; [exact Hll|exact Empty]]]]]]]]]].
    + destruct I2. constructor; try assumption; rewrite ?W1; assumption.
    + split; [exact K1|]. split; [exact K2|]. eapply callsOk_incl; [|exact K3]. apply incl_appr, incl_refl.
    + intros r Lr Hr. apply X4; [apply Y6; assumption|exact Hr].
  - exists b2, p2, m2, (cl1 ++ cl2), fr2, lb. split; [reflexivity|]. rewrite !upstream_app, !callsOk_app. split; [exact I2|]. split; [auto|]. split; [congruence|]. split; [congruence|]. split; [congruence|]. split; [|split; [exact Mem|split; [exact Inc|split; [exact Hd|split; [exact Hll|exact Empty]]]]].
    intros r Lr Hr. apply X4; [apply Y6; assumption|exact Hr].
Qed.

(** Changes elsewhere. *)
Lemma frame_ok b p m ow oth fr l p' m' ow' oth' fr' : BInv b p m ow oth fr l -> PInv p' m' ow' (bheld b l ++ oth') fr' -> chunkBytes p' = chunkBytes p ->
  (forall x, In x (bheld b l) -> sameIn x m m') -> BInv b p' m' ow' oth' fr' l /\ (forall r, located b m l r -> located b m' l r).
Proof.
  intros I P C S. split.
  - constructor.
    + exact P.
    + rewrite C. exact (bi_cb _ _ _ _ _ _ _ I).
    + rewrite C. exact (bi_24 _ _ _ _ _ _ _ I).
    + apply (schain_ext m); [|exact (bi_chain _ _ _ _ _ _ _ I)]. intros x Hx y Hy. assert (Hb : In (blk x) (bheld b l)) by (apply in_or_app; left; apply in_map; exact Hx).
      apply (S (blk x) Hb). pose proof (proj1 (Forall_forall _ _) (bi_sizes _ _ _ _ _ _ _ I) (blk x) Hb) as Z. unfold okSize in Z. pose proof (bi_24 _ _ _ _ _ _ _ I). lia.
    + exact (bi_tail _ _ _ _ _ _ _ I).
    + exact (bi_thr _ _ _ _ _ _ _ I).
    + rewrite C. exact (bi_sizes _ _ _ _ _ _ _ I).
    + exact (bi_head _ _ _ _ _ _ _ I).
  - intros r. apply located_mem; [exact S|]. intros Hn. apply (bi_head _ _ _ _ _ _ _ I Hn).
Qed.

Lemma other_ok b s fr l o : BInv b (pl s) (pm s) (owned s) (held s) fr l -> poolLegal s o ->
  exists s' c cl fr', poolDo s o = Some (s', c, cl) /\ BInv b (pl s') (pm s') (owned s') (held s') fr' l /\ callsOk (owned s) (held s') cl /\ owned s' = upstream (owned s) cl /\
    chunkBytes (pl s') = chunkBytes (pl s) /\ maxChunks (pl s') = maxChunks (pl s) /\ (forall r, located b (pm s) l r -> located b (pm s') l r) /\
    (c = (0, 0) /\ held s' = held s \/ c = (0, 0) /\ (exists d, held s' = drop d (held s)) \/ c <> (0, 0) /\ held s' = c :: held s /\ Forall (disjoint c) (held s) /\ In c (owned s')) /\
    ((forall a d, o <> Write a d) -> forall x, In x (held s') -> In x (held s) -> sameIn x (pm s) (pm s')).
Proof.
  intros I Lg. pose proof (bi_pool _ _ _ _ _ _ _ I) as P. pose proof (bi_24 _ _ _ _ _ _ _ I) as H24.
  assert (PW : pairwise (bheld b l ++ held s)) by (pose proof (pi_pair' _ _ _ _ _ P) as X; apply pairwise_app in X; tauto).
  assert (Idm : forall x, sameIn x (pm s) (pm s)) by (intros x y _; reflexivity).
  destruct o as [up|bytes up|c0|c0|keep|a d]; cbn [poolDo poolLegal] in *.
  - destruct (acquire (pl s) (pm s) up) as [[p' c'] l'] eqn:A. destruct (do_acquire _ _ _ _ _ P up p' c' l' A Lg) as [(-> & -> & -> & _)|(fr' & Z & Z1 & Z2 & I' & _ & Z3)].
    + eexists _, (0, 0), [], fr. split; [reflexivity|]. cbn [pl pm owned held empty snd N.eqb upstream callsOk]. split; [exact I|]. repeat (split; [reflexivity || exact Logic.I|]). split; [tauto|]. split; [left; auto|]. intros _ x _ _. apply Idm.
    + eexists _, c', l', fr'. split; [reflexivity|]. cbn [pl pm owned held]. unfold empty. rewrite (proj2 (N.eqb_neq (snd c') 0)) by lia.
      pose proof (pi_pair' _ _ _ _ _ I') as X. apply pairwise_app in X. destruct X as (X & _). apply pairwise_cons in X. destruct X as [X _]. apply Forall_app in X. destruct X as [_ X].
      pose proof (pi_perm _ _ _ _ _ I') as Pm.
      assert (I2 : PInv p' (pm s) (upstream (owned s) l') (bheld b l ++ c' :: held s) fr') by (eapply pi_held_perm; [exact I'|]; cbn [app]; apply Permutation_middle).
      destruct (frame_ok _ _ _ _ _ _ _ p' (pm s) _ (c' :: held s) fr' I I2 Z1 (fun x _ => Idm x)) as [F1 F2].
      split; [exact F1|]. split; [destruct Z3 as [[_ ->]|(_ & _ & _ & ->)]; exact Logic.I|]. split; [reflexivity|]. split; [exact Z1|]. split; [exact Z2|]. split; [exact F2|]. split; [right; right|intros _ x _ _; apply Idm].
      split; [intros ->; cbn [snd] in Z; lia|]. split; [reflexivity|]. split; [exact X|]. rewrite Pm. left. reflexivity.
  - destruct Lg as [G0 G]. destruct (acquireOversized (pl s) bytes up) as [[p' c'] l'] eqn:A. destruct (do_acquireBig _ _ _ _ _ P bytes up p' c' l' A G0 G) as [(-> & -> & -> & _)|(-> & -> & Z1 & Z2 & I')].
    + eexists _, (0, 0), [], fr. split; [reflexivity|]. cbn [pl pm owned held empty snd N.eqb upstream callsOk]. split; [exact I|]. repeat (split; [reflexivity || exact Logic.I|]). split; [tauto|]. split; [left; auto|]. intros _ x _ _. apply Idm.
    + eexists _, (up, bytes), [UpAlloc up bytes], fr. split; [reflexivity|]. cbn [pl pm owned held]. unfold empty. cbn [snd]. rewrite (proj2 (N.eqb_neq bytes 0)) by lia.
      pose proof (pi_pair' _ _ _ _ _ I') as X. apply pairwise_app in X. destruct X as (X & _). apply pairwise_cons in X. destruct X as [X _]. apply Forall_app in X. destruct X as [_ X].
      assert (I2 : PInv p' (pm s) (upstream (owned s) [UpAlloc up bytes]) (bheld b l ++ (up, bytes) :: held s) fr) by (eapply pi_held_perm; [exact I'|]; cbn [app]; apply Permutation_middle).
      destruct (frame_ok _ _ _ _ _ _ _ p' (pm s) _ ((up, bytes) :: held s) fr I I2 Z1 (fun x _ => Idm x)) as [F1 F2].
      split; [exact F1|]. split; [exact Logic.I|]. split; [reflexivity|]. split; [exact Z1|]. split; [exact Z2|]. split; [exact F2|]. split; [right; right|intros _ x _ _; apply Idm].
      split; [intros H; injection H as _ ->; lia|]. split; [reflexivity|]. split; [exact X|]. cbn [upstream]. left. reflexivity.
  - destruct Lg as [L1 L2]. destruct (release (pl s) (pm s) c0) as [p' m'] eqn:A.
    assert (Pm : Permutation (bheld b l ++ held s) (c0 :: bheld b l ++ drop c0 (held s))) by (rewrite (drop_perm _ _ L1) at 1; symmetry; apply Permutation_middle).
    destruct (do_release _ _ _ _ _ P c0 p' m' _ A Pm L2) as (Z1 & Z2 & I' & O). apply (pairwise_perm _ _ Pm) in PW. apply pairwise_cons in PW. destruct PW as [PW _]. rewrite Forall_forall in PW.
    assert (Sm : forall x, In x (bheld b l ++ drop c0 (held s)) -> sameIn x (pm s) m') by (intros x Hx y Hy; apply O; specialize (PW x Hx); unfold disjoint in PW; lia).
    destruct (frame_ok _ _ _ _ _ _ _ p' m' _ (drop c0 (held s)) _ I I' Z1 (fun x Hx => Sm x (in_or_app _ _ _ (or_introl Hx)))) as [F1 F2].
    eexists _, (0, 0), [], _. split; [reflexivity|]. cbn [pl pm owned held upstream callsOk]. split; [exact F1|]. split; [exact Logic.I|]. split; [reflexivity|]. split; [exact Z1|]. split; [exact Z2|]. split; [exact F2|].
    split; [right; left; split; [reflexivity|exists c0; reflexivity]|]. intros _ x Hx _. apply Sm. apply in_or_app. right. exact Hx.
  - destruct (releaseOversized (pl s) c0) as [p' l'] eqn:A.
    assert (Pm : Permutation (bheld b l ++ held s) (c0 :: bheld b l ++ drop c0 (held s))) by (rewrite (drop_perm _ _ Lg) at 1; symmetry; apply Permutation_middle).
    destruct (do_releaseBig _ _ _ _ _ P c0 p' l' _ A Pm) as (-> & Ho & D & Z1 & Z2 & I'). apply Forall_app in D. destruct D as [_ D].
    assert (Ec : (fst c0, snd c0) = c0) by (destruct c0; reflexivity).
    destruct (frame_ok _ _ _ _ _ _ _ p' (pm s) _ (drop c0 (held s)) _ I I' Z1 (fun x _ => Idm x)) as [F1 F2].
    eexists _, (0, 0), [UpFree (fst c0) (snd c0)], fr. split; [reflexivity|]. cbn [pl pm owned held upstream callsOk]. rewrite Ec. split; [exact F1|]. split; [auto|]. split; [reflexivity|]. split; [exact Z1|]. split; [exact Z2|]. split; [exact F2|].
    split; [right; left; split; [reflexivity|exists c0; reflexivity]|]. intros _ x _ _. apply Idm.
  - destruct (do_reclaim keep _ _ _ _ _ P) as (p' & l' & fr' & A & K & Z1 & Z2 & I' & _). rewrite A.
    destruct (frame_ok _ _ _ _ _ _ _ p' (pm s) _ (held s) _ I I' Z1 (fun x _ => Idm x)) as [F1 F2].
    eexists _, (0, 0), l', fr'. split; [reflexivity|]. cbn [pl pm owned held]. split; [exact F1|]. split; [eapply callsOk_incl; [|exact K]; apply incl_appr, incl_refl|]. split; [reflexivity|]. split; [exact Z1|]. split; [exact Z2|]. split; [exact F2|].
    split; [left; auto|]. intros _ x _ _. apply Idm.
  - destruct Lg as (c0 & Hc & Hi). assert (I' : PInv (pl s) (wr (pm s) a d) (owned s) (bheld b l ++ held s) fr) by (eapply pi_held_write; [exact P|apply in_or_app; right; exact Hc|exact Hi]).
    apply pairwise_app in PW. destruct PW as (_ & _ & PW).
    assert (Sm : forall x, In x (bheld b l) -> sameIn x (pm s) (wr (pm s) a d)) by (intros x Hx y Hy; apply wr_out; specialize (PW x c0 Hx Hc); destruct Hi; unfold disjoint in PW; lia).
    destruct (frame_ok _ _ _ _ _ _ _ (pl s) (wr (pm s) a d) _ (held s) _ I I' eq_refl Sm) as [F1 F2].
    eexists _, (0, 0), [], fr. split; [reflexivity|]. cbn [pl pm owned held upstream callsOk]. split; [exact F1|]. repeat (split; [reflexivity || exact Logic.I|]). split; [exact F2|]. split; [left; auto|]. intros X. exfalso. exact (X a d eq_refl).
Qed.

(** *** histories *)
Record SInv (keep cb mx : N) (s : sys) (fr : list N) (l : list sealed) : Prop := {
  si_b : BInv (sb s) (sp s) (sm s) (sow s) (soth s) fr l;
  si_cb : chunkBytes (sp s) = cb;
  si_mx : maxChunks (sp s) = mx;
  si_keep : keepResident (sb s) = keep;
  si_loc : forall r, In r (recs s) -> needed s (posOf r) -> located (sb s) (sm s) l r;
  si_rd : Forall (fun r => r <= pub s) (readers s);
  si_next : pub s <= nextPos s;
  si_recs : forall r, In r (recs s) -> posOf r <= nextPos s;
  si_64 : pub s + nres s < 2 ^ 64;
  si_thr : forall x, In x l -> snd (fst x) <= top s;
  si_head : headBlocks (sb s) <> [] -> headLast (sb s) < top s }.

Lemma min_fold rs : forall r x, In x (r :: rs) -> fold_left N.min rs r <= x.
Proof.
  induction rs as [|y rs IH]; intros r x H; cbn [fold_left].
  - destruct H as [ <- |[]]. lia.
  - destruct H as [ <- |[ <- |H]]; [etransitivity; [apply (IH (N.min r y) (N.min r y)); left; reflexivity|lia]|etransitivity; [apply (IH (N.min r y) (N.min r y)); left; reflexivity|lia]|apply IH; right; exact H].
Qed.
Lemma min_in rs : forall r, In (fold_left N.min rs r) (r :: rs).
Proof.
  induction rs as [|y rs IH]; intros r; cbn [fold_left]; [left; reflexivity|]. destruct (IH (N.min r y)) as [E|E]; [rewrite <- E|right; right; exact E].
  destruct (N.min_spec r y) as [[_ ->]|[_ ->]]; [left|right; left]; reflexivity.
Qed.
Lemma needed_min s pos : Forall (fun r => r <= pub s) (readers s) -> needed s pos -> minReader (readers s) <= pos.
Proof.
  intros R [H|(r & Hr & H)]; unfold minReader; destruct (readers s) as [|r0 rs]; try lia.
  - pose proof (min_fold rs r0 r0 (or_introl eq_refl)). inversion R; subst. lia.
  - pose proof (min_fold rs r0 r Hr). lia.
Qed.

Definition quiet (a : action) : Prop := match a with Other (Write _ _) => False | _ => True end.
Lemma exec_ok keep cb mx s fr l a : SInv keep cb mx s fr l -> legal s a ->
  exists s' cl fr' l', exec s a = Some (s', cl) /\ SInv keep cb mx s' fr' l' /\ callsOk (sow s) (soth s') cl /\ sow s' = upstream (sow s) cl /\
    (quiet a -> forall x, In x (soth s') -> In x (soth s) -> sameIn x (sm s) (sm s')).
Proof.
  intros I Lg. destruct I as [Ib Icb Imx Ik Il Ir In0 Irec I64 Ith Ihd].
  assert (Idm : quiet a -> forall x, In x (soth s) -> In x (soth s) -> sameIn x (sm s) (sm s)) by (intros _ x _ _ y _; reflexivity).
  destruct a as [n|i blob up|k| |i|i k|deep|o]; cbn [exec legal] in *.
  - eexists _, [], fr, l. split; [reflexivity|]. split; [|split; [exact I|split; [reflexivity|exact Idm]]]. constructor; cbn; try assumption; try lia.
    + intros r Hr Hn. apply filter_In in Hr. apply Il; tauto.
    + intros r Hr. apply filter_In in Hr. destruct Hr as [_ Hr]. apply N.ltb_lt in Hr. lia.
  - destruct Lg as (L1 & L2 & L3). destruct (serialiseBlob (sb s) (sp s) (sm s) blob (pub s + i) up) as [[[[b' p'] m'] c] cl] eqn:E.
    assert (Hp : pub s + i < 2 ^ 64) by lia.
    destruct (serialise_ok _ _ _ _ _ _ _ _ _ _ _ _ _ _ _ Ib Hp L3 E) as (fr' & l' & S1 & S2 & S3 & S4 & S5 & S6 & S7 & S8 & S9 & S10 & S11).
    eexists _, cl, fr', l'. split; [reflexivity|]. split; [|split; [exact S2|split; [reflexivity|intros _ x Hx _; rewrite Forall_forall in S8; exact (S8 x Hx)]]].
    set (kept := filter (fun r => negb (posOf r =? pub s + i)) (recs s)) in *.
    assert (Hk : forall r, In r kept -> In r (recs s) /\ posOf r < pub s + i).
    { intros r Hr. apply filter_In in Hr. destruct Hr as [H1 H2]. apply negb_true_iff, N.eqb_neq in H2. specialize (Irec r H1). split; [exact H1|lia]. }
    constructor; cbn [sb sp sm sow soth pub nres nextPos readers recs top]; try assumption; try congruence; try lia.
    + intros r Hr Hn. assert (Hn' : needed s (posOf r)) by exact Hn. destruct (snd c =? len blob) eqn:Ec.
      * apply N.eqb_eq in Ec. destruct Hr as [ <- |Hr]; [exact (S7 Ec)|]. destruct (Hk r Hr). apply S6; auto.
      * destruct (Hk r Hr). apply S6; auto.
    + intros r Hr. assert (X : In r kept \/ r = (pub s + i, fst c, blob)) by (destruct (snd c =? len blob); [destruct Hr; auto|auto]). destruct X as [X| ->]; [destruct (Hk r X); lia|unfold posOf; cbn [fst]; lia].
    + intros x Hx. destruct (S10 x Hx) as [X|X]; [specialize (Ith x X)|]; lia.
    + intros X. destruct S11 as [S11|S11]; [contradiction|]. lia.
  - eexists _, [], fr, l. split; [reflexivity|]. split; [|split; [exact I|split; [reflexivity|exact Idm]]]. constructor; cbn; try assumption; try lia.
    + intros r Hr Hn. apply filter_In in Hr. destruct Hr as [Hr Hp]. apply N.ltb_lt in Hp. apply Il; [exact Hr|]. unfold needed in *. cbn in Hn. destruct Hn as [Hn|Hn]; [lia|right; exact Hn].
    + rewrite Forall_forall in *. intros r Hr. specialize (Ir r Hr). lia.
    + intros r Hr. apply filter_In in Hr. destruct Hr as [_ Hr]. apply N.ltb_lt in Hr. lia.
  - eexists _, [], fr, l. split; [reflexivity|]. split; [|split; [exact I|split; [reflexivity|exact Idm]]]. constructor; cbn; try assumption; try lia.
    + intros r Hr Hn. apply Il; [exact Hr|]. unfold needed in *. cbn in Hn. destruct Hn as [Hn|(x & Hx & Hn)]; [left; exact Hn|]. apply in_app_or in Hx. destruct Hx as [Hx|[ <- |[]]]; [right; eauto|left; exact Hn].
    + apply Forall_app. split; [exact Ir|]. constructor; [lia|constructor].
  - eexists _, [], fr, l. split; [reflexivity|]. split; [|split; [exact I|split; [reflexivity|exact Idm]]].
    assert (Inc : incl (firstn i (readers s) ++ skipn (S i) (readers s)) (readers s)).
    { intros x Hx. apply in_app_or in Hx. destruct Hx as [Hx|Hx]; [rewrite <- (firstn_skipn i); apply in_or_app; left; exact Hx|rewrite <- (firstn_skipn (S i)); apply in_or_app; right; exact Hx]. }
    constructor; cbn [sb sp sm sow soth pub nres nextPos readers recs top]; try assumption; try lia.
    + intros r Hr Hn. apply Il; [exact Hr|]. unfold needed in *. cbn [pub readers] in Hn. destruct Hn as [Hn|(x & Hx & Hn)]; [left; exact Hn|right; eauto].
    + rewrite Forall_forall in *. auto.
  - destruct Lg as (r0 & Lg & Lk). rewrite Lg. eexists _, [], fr, l. split; [reflexivity|]. split; [|split; [exact I|split; [reflexivity|exact Idm]]].
    assert (Inc : forall x, In x (upd i (r0 + k) (readers s)) -> x = r0 + k \/ In x (readers s)).
    { intros x Hx. unfold upd in Hx. apply in_app_or in Hx. destruct Hx as [Hx|[ <- |Hx]]; [right; rewrite <- (firstn_skipn i); apply in_or_app; left; exact Hx|left; reflexivity|right; rewrite <- (firstn_skipn (S i)); apply in_or_app; right; exact Hx]. }
    constructor; cbn [sb sp sm sow soth pub nres nextPos readers recs top]; try assumption; try lia.
    + intros r Hr Hn. apply Il; [exact Hr|]. unfold needed in *. cbn [pub readers] in Hn. destruct Hn as [Hn|(x & Hx & Hn)]; [left; exact Hn|right]. destruct (Inc x Hx) as [ -> |Hx']; [exists r0; split; [eapply nth_error_In; eauto|lia]|eauto].
    + rewrite Forall_forall in *. intros x Hx. destruct (Inc x Hx) as [ -> |Hx']; [lia|auto].
  - assert (F : (length l <= length (sow s))%nat).
    { pose proof (pi_len _ _ _ _ _ (bi_pool _ _ _ _ _ _ _ Ib)) as L. unfold bheld in L. rewrite !len_app', len_map in L. unfold len in L. unfold block in *. lia. }
    destruct (house_ok deep (minReader (readers s)) (soth s) l _ _ _ _ _ (length (sow s)) Ib F) as (b' & p' & m' & cl & fr' & l' & E & S1 & S2 & S3 & S4 & S5 & S6 & S7 & S8 & S9 & S10 & S11). rewrite E.
    eexists _, cl, fr', l'. split; [reflexivity|]. split; [|split; [exact S2|split; [reflexivity|intros _ x Hx _; rewrite Forall_forall in S7; exact (S7 x Hx)]]].
    constructor; cbn [sb sp sm sow soth pub nres nextPos readers recs top]; try assumption; try congruence; try lia.
    + intros r Hr Hn. apply S6; [apply Il; [exact Hr|exact Hn]|apply needed_min; [exact Ir|exact Hn]].
    + intros x Hx. apply Ith, S8, Hx.
    + rewrite S10. destruct S9 as [ -> | -> ]; [exact Ihd|congruence].
  - destruct (other_ok (sb s) (others s) fr l o Ib Lg) as (q & c & cl & fr' & E & S1 & S2 & S3 & S4 & S5 & S6 & S7 & S8). rewrite E. eexists _, cl, fr', l. split; [reflexivity|]. cbn [sow soth sm].
    split; [|split; [exact S2|split; [exact S3|]]].
    + constructor; cbn [sb sp sm sow soth pub nres nextPos readers recs top]; try assumption; try congruence; try lia.
      * rewrite S4. exact Icb.
      * rewrite S5. exact Imx.
      * intros r Hr Hn. apply S6. apply Il; [exact Hr|exact Hn].
    + intros Q x Hx Hx'. apply S8; [|exact Hx|exact Hx']. intros y d ->. exact Q.
Qed.

Lemma reach_inv keep cb mx s : 24 <= cb -> mx < 2 ^ 64 -> reach keep cb mx s -> exists fr l, SInv keep cb mx s fr l.
Proof.
  intros Hcb Hmx R. induction R as [m|s a s' l R (fr & ls & IH) Lg E].
  - exists [], []. constructor; cbn; try reflexivity; try (intros x []); try lia; try constructor; cbn; try reflexivity; try assumption; try constructor; cbn; try reflexivity; try lia; try constructor; try congruence.
  - destruct (exec_ok _ _ _ _ _ _ _ IH Lg) as (s1 & cl & fr' & l' & E' & I' & _). rewrite E in E'. injection E' as <- _. exists fr', l'. exact I'.
Qed.

(** The destructor of the buffer. *)
Lemma releaseChunk_cb b b' : bChunkBytes b = bChunkBytes b' -> releaseChunk b = releaseChunk b'.
Proof. intros E. unfold releaseChunk. rewrite E. reflexivity. Qed.
Lemma drainAll_tail : forall f b b' p m, sealedHead b = sealedHead b' -> head b = head b' -> bChunkBytes b = bChunkBytes b' -> drainAll f b p m = drainAll f b' p m.
Proof.
  induction f as [|f IH]; intros b b' p m E1 E2 E3; cbn [drainAll]; rewrite E1, E2, (releaseChunk_cb _ _ E3).
  - reflexivity.
  - destruct (sealedHead b' =? 0); [reflexivity|]. destruct (releaseChunk b' p m _) as [[pp mm] ll].
    rewrite (IH (setSealed b (hNext m (sealedHead b')) (sealedTail b)) (setSealed b' (hNext m (sealedHead b')) (sealedTail b')) pp mm); [reflexivity|reflexivity|exact E2|exact E3].
Qed.
Lemma drainAll_ok oth : forall l b p m ow fr fuel, BInv b p m ow oth fr l -> (length l <= fuel)%nat ->
  exists p' m' cl fr', drainAll fuel b p m = Some (p', m', cl) /\ PInv p' m' (upstream ow cl) oth fr' /\ callsOk ow oth cl /\ chunkBytes p' = chunkBytes p /\ maxChunks p' = maxChunks p /\ Forall (fun x => sameIn x m m') oth.
Proof.
  induction l as [|[[a t] s] l IH]; intros b p m ow fr fuel I F.
  - pose proof (bi_chain _ _ _ _ _ _ _ I) as C. cbn [schain] in C. assert (E : drainAll fuel b p m = if negb (snd (head b) =? 0) then Some (releaseChunk b p m (head b)) else Some (p, m, [])) by (destruct fuel; cbn [drainAll]; rewrite C; reflexivity). rewrite E. clear E.
    destruct (snd (head b) =? 0) eqn:E0; cbn [negb].
    + exists p, m, [], fr. split; [reflexivity|]. cbn [upstream callsOk]. pose proof (bi_pool _ _ _ _ _ _ _ I) as P. unfold bheld, headBlocks in P. rewrite E0 in P. split; [exact P|]. repeat (split; [reflexivity || exact Logic.I|]). rewrite Forall_forall. intros x _ y _. reflexivity.
    + assert (HB : headBlocks b = [head b]) by (unfold headBlocks; rewrite E0; reflexivity). assert (Pm : Permutation (bheld b [] ++ oth) (head b :: oth)) by (unfold bheld; rewrite HB; reflexivity).
      pose proof (proj1 (Forall_forall _ _) (bi_sizes _ _ _ _ _ _ _ I) (head b) ltac:(unfold bheld; rewrite HB; left; reflexivity)) as Zs. unfold okSize in Zs. pose proof (bi_24 _ _ _ _ _ _ _ I) as H24.
      destruct (releaseChunk b p m (head b)) as [[p2 m2] cl2] eqn:Er.
      destruct (releaseChunk_ok b p m _ _ _ fr (head b) p2 m2 cl2 (bi_pool _ _ _ _ _ _ _ I) Pm (bi_cb _ _ _ _ _ _ _ I) Zs Er) as (fr2 & I2 & Z1 & Z2 & K2 & O2).
      pose proof (bi_pair _ _ _ _ _ _ _ I) as PW. rewrite HB in PW. cbn [map app] in PW. apply pairwise_cons in PW. destruct PW as [PW _]. rewrite Forall_forall in PW.
      exists p2, m2, cl2, fr2. split; [reflexivity|]. split; [exact I2|]. split; [exact K2|]. split; [exact Z1|]. split; [exact Z2|]. rewrite Forall_forall. intros x Hx y Hy. apply O2. specialize (PW x Hx). unfold disjoint in PW. lia.
  - pose proof (bi_chain _ _ _ _ _ _ _ I) as C. cbn [schain] in C. destruct C as (C1 & C2 & C3 & C4 & C5). destruct fuel as [|fuel]; [cbn [length] in F; lia|]. cbn [drainAll]. rewrite C1, (proj2 (N.eqb_neq a 0) C2), C4.
    destruct (releaseChunk b p m (a, s)) as [[p1 m1] cl1] eqn:Er. set (b1 := setSealed b (hNext m a) (sealedTail b)).
    pose proof (proj1 (Forall_forall _ _) (bi_sizes _ _ _ _ _ _ _ I) (a, s) ltac:(left; reflexivity)) as Zs. unfold okSize in Zs. cbn [snd] in Zs. pose proof (bi_24 _ _ _ _ _ _ _ I) as H24.
    assert (Pm : Permutation (bheld b ((a, t, s) :: l) ++ oth) ((a, s) :: bheld b1 l ++ oth)) by reflexivity.
    destruct (releaseChunk_ok b p m ow _ _ fr (a, s) p1 m1 cl1 (bi_pool _ _ _ _ _ _ _ I) Pm (bi_cb _ _ _ _ _ _ _ I) Zs Er) as (fr1 & I1 & Z1 & Z2 & K1 & O1). cbn [fst] in O1.
    pose proof (pi_pair' _ _ _ _ _ (bi_pool _ _ _ _ _ _ _ I)) as PW. apply pairwise_app in PW. destruct PW as (PW & _). apply (pairwise_perm _ _ Pm) in PW. apply pairwise_cons in PW. destruct PW as [PW _]. rewrite Forall_forall in PW.
    assert (Same : forall x, In x (bheld b1 l ++ oth) -> sameIn x m m1) by (intros x Hx y Hy; apply O1; specialize (PW x Hx); unfold disjoint in PW; cbn [fst snd] in PW; lia).
    (* the destructor does not maintain the tail; it is not read either *)
    set (b2 := setSealed b (hNext m a) (match l with [] => 0 | _ => fst (blk (last l (0, 0, 0))) end)).
    assert (I1' : BInv b2 p1 m1 (upstream ow cl1) oth fr1 l).
    { constructor; try reflexivity.
      - exact I1.
      - rewrite Z1. exact (bi_cb _ _ _ _ _ _ _ I).
      - rewrite Z1. exact H24.
      - apply (schain_ext m); [|exact C5]. intros x Hx y Hy. assert (Hb : In (blk x) (bheld b1 l)) by (apply in_or_app; left; apply in_map; exact Hx).
        apply (Same (blk x)); [apply in_or_app; left; exact Hb|]. pose proof (proj1 (Forall_forall _ _) (bi_sizes _ _ _ _ _ _ _ I) (blk x) ltac:(right; exact Hb)) as Zx. unfold okSize in Zx. lia.
      - pose proof (bi_thr _ _ _ _ _ _ _ I) as T. inversion T. assumption.
      - rewrite Z1. pose proof (bi_sizes _ _ _ _ _ _ _ I) as T. inversion T. assumption.
      - exact (bi_head _ _ _ _ _ _ _ I). }
    destruct (IH b2 p1 m1 (upstream ow cl1) fr1 fuel I1' ltac:(cbn [length] in F; lia)) as (p' & m' & cl & fr' & E & I' & K' & Y1 & Y2 & Y3).
    assert (E1 : drainAll fuel b1 p1 m1 = drainAll fuel b2 p1 m1) by (apply drainAll_tail; reflexivity).
    rewrite E1, E. exists p', m', (cl1 ++ cl), fr'. split; [reflexivity|]. rewrite upstream_app. split; [exact I'|].
    split; [apply callsOk_app; split; [eapply callsOk_incl; [|exact K1]; apply incl_appr, incl_refl|exact K']|]. split; [congruence|]. split; [congruence|].
    rewrite Forall_forall in *. intros x Hx y Hy. etransitivity; [exact (Y3 x Hx y Hy)|]. apply (Same x); [apply in_or_app; right; exact Hx|exact Hy].
Qed.
