(** The byte pool of the property map: sizes, blocks, free list. *)
From Coq Require Import List NArith Lia Bool Permutation ZifyBool ZifyN ZifyNat.
From Verif Require Import Base WireModel WireProofs ChunkModel ChunkSpec ChunkPoolProofs ChunkProofs AllocProofs ValueMapModel ValueMapSpec.
Import ListNotations.
Local Open Scope N_scope.

Lemma W32_val : W32 = 4294967296. Proof. reflexivity. Qed.
Lemma ldiff15 x : N.ldiff x 15 = x / 16 * 16.
Proof. change 15 with (2 ^ 4 - 1). rewrite (ldiff_pow x 4). reflexivity. Qed.
Lemma add32_small a b : a + b < W32 -> add32 a b = a + b.
Proof. intros H. unfold add32. apply N.mod_small. exact H. Qed.
Lemma div16 x : x / 16 * 16 <= x < x / 16 * 16 + 16.
Proof. pose proof (N.div_mod x 16 ltac:(lia)). pose proof (N.mod_lt x 16 ltac:(lia)). lia. Qed.
Lemma atr_range n : 16 <= alignToRecord n < W32.
Proof.
  unfold alignToRecord. rewrite ldiff15. pose proof (div16 (add32 n 15)) as D. assert (add32 n 15 < W32) by (unfold add32; apply N.mod_lt; discriminate).
  rewrite W32_val in *. destruct (N.ltb_spec (add32 n 15 / 16 * 16) 16); lia.
Qed.
Lemma atr_mod n : alignToRecord n mod 16 = 0.
Proof.
  unfold alignToRecord. rewrite ldiff15. destruct (add32 n 15 / 16 * 16 <? 16); [reflexivity|]. apply N.mod_mul. lia.
Qed.
Lemma atr_up n : n + 15 < W32 -> n <= alignToRecord n.
Proof.
  intros H. unfold alignToRecord. rewrite ldiff15, add32_small by exact H. pose proof (div16 (n + 15)). destruct (N.ltb_spec ((n + 15) / 16 * 16) 16); lia.
Qed.
Lemma atr_val n : n + 15 < W32 -> alignToRecord n = if n =? 0 then 16 else (n + 15) / 16 * 16.
Proof.
  intros H. unfold alignToRecord. rewrite ldiff15, add32_small by exact H. pose proof (div16 (n + 15)). destruct (N.eqb_spec n 0).
  - subst. reflexivity.
  - destruct (N.ltb_spec ((n + 15) / 16 * 16) 16); [|reflexivity]. lia.
Qed.
Lemma mul16 n : n mod 16 = 0 -> n / 16 * 16 = n. Proof. intros H. pose proof (N.div_mod n 16 ltac:(lia)). lia. Qed.
Lemma atr_id n : n mod 16 = 0 -> 16 <= n -> n + 15 < W32 -> alignToRecord n = n.
Proof.
  intros H1 H2 H3. rewrite atr_val by exact H3. rewrite (proj2 (N.eqb_neq n 0)) by lia. pose proof (mul16 n H1). pose proof (div16 (n + 15)).
  assert ((n + 15) / 16 = n / 16); [|lia]. symmetry. apply (N.div_unique (n + 15) 16 (n / 16) 15); lia.
Qed.
Lemma round_ok n : n + 15 < W32 -> n <= roundUp16 n < n + 16 /\ roundUp16 n mod 16 = 0.
Proof.
  intros H. unfold roundUp16. destruct (N.eqb_spec (alignToRecord n) n) as [E|E].
  - split; [lia|]. rewrite <- E. apply atr_mod.
  - rewrite ldiff15, add32_small by exact H. pose proof (div16 (n + 15)). split; [lia|]. apply N.mod_mul. lia.
Qed.

Lemma rd_shift mm mm' k : forall a a', (forall i, i < N.of_nat k -> mm' (a' + i) = mm (a + i)) -> rd mm' a' k = rd mm a k.
Proof.
  induction k as [|k IH]; intros a a' H; [reflexivity|]. cbn [rd]. f_equal.
  - specialize (H 0 ltac:(lia)). rewrite !N.add_0_r in H. exact H.
  - apply IH. intros i Hi. rewrite <- !N.add_assoc. apply H. lia.
Qed.
Lemma len_zeros n : len (zeros n) = n. Proof. unfold len, zeros. rewrite repeat_length. lia. Qed.
Lemma dec_enc4 x : x < W32 -> dec (enc 4 x) = x. Proof. intros H. rewrite dec_enc. change (256 ^ N.of_nat 4) with W32. apply N.mod_small. exact H. Qed.
(** Reading part of what was written. *)
Lemma rd_wr_mid mm a pre x post : rd (wr mm a (pre ++ x ++ post)) (a + len pre) (length x) = x.
Proof.
  pose proof (rd_wr mm (pre ++ x ++ post) a) as R. rewrite !app_length, !rd_app in R.
  assert (X : forall (a b a' b' : list N), length a = length a' -> a ++ b = a' ++ b' -> a = a' /\ b = b').
  { clear. induction a as [|x a IH]; intros b [|y a'] b' L E; try discriminate; [auto|]. cbn in *. injection E as -> E. injection L as L. destruct (IH b a' b' L E) as [ -> -> ]. auto. }
  apply X in R; [|apply rd_len]. destruct R as [_ R]. apply X in R; [|apply rd_len]. destruct R as [R _]. exact R.
Qed.

(** Blocks of at least 8 bytes in a blob of [c] bytes: at most [c / 8] of them. *)
Lemma blocks_fit c l : pairwise l -> Forall (fun b => 8 <= snd b) l -> Forall (fun b => fst b + snd b <= c) l -> len l <= c / 8.
Proof.
  intros P M I. set (f := fun b : block => N.to_nat (fst b / 8)).
  assert (ND : NoDup (map f l)).
  { revert P M. clear. induction l as [|x l IH]; intros P M; cbn [map]; [constructor|]. apply pairwise_cons in P. destruct P as [P1 P2]. inversion M as [|? ? M1 M2]; subst. constructor; [|auto].
    rewrite in_map_iff. intros (y & E & Hy). rewrite Forall_forall in P1, M2. specialize (P1 y Hy). specialize (M2 y Hy). cbn beta in M1, M2. unfold disjoint in P1. unfold f in E.
    pose proof (N.div_mod (fst x) 8 ltac:(lia)). pose proof (N.mod_lt (fst x) 8 ltac:(lia)). pose proof (N.div_mod (fst y) 8 ltac:(lia)). pose proof (N.mod_lt (fst y) 8 ltac:(lia)). lia. }
  assert (IC : incl (map f l) (seq 0 (N.to_nat (c / 8)))).
  { intros y Hy. apply in_map_iff in Hy. destruct Hy as (b & <- & Hb). rewrite Forall_forall in M, I. specialize (M b Hb). specialize (I b Hb). cbn beta in M, I. apply in_seq. unfold f.
    pose proof (N.div_mod (fst b) 8 ltac:(lia)). pose proof (N.mod_lt (fst b) 8 ltac:(lia)). pose proof (N.div_mod c 8 ltac:(lia)). pose proof (N.mod_lt c 8 ltac:(lia)). lia. }
  pose proof (NoDup_incl_length ND IC) as L. rewrite map_length, seq_length in L. unfold len. lia.
Qed.

(** The free list in the blob. *)
Fixpoint fchain (mm : memory) (h : N) (fr : list block) : Prop :=
  match fr with
  | [] => h = 0
  | b :: r => h = fst b /\ fst b <> 0 /\ dec (rd mm (fst b) 4) = snd b /\ fchain mm (dec (rd mm (fst b + 4) 4)) r
  end.
Definition hdr (b : block) : block := (fst b, 8).
Lemma fchain_ext mm mm' fr : forall h, (forall b, In b fr -> sameIn (hdr b) mm mm') -> fchain mm h fr -> fchain mm' h fr.
Proof.
  induction fr as [|b fr IH]; intros h H C; [exact C|]. cbn [fchain] in *. destruct C as (C1 & C2 & C3 & C4).
  assert (S : sameIn (hdr b) mm mm') by (apply H; left; reflexivity). unfold sameIn, hdr in S. cbn [fst snd] in S.
  split; [exact C1|]. split; [exact C2|]. split.
  - rewrite <- C3. f_equal. apply rd_ext. intros x Hx. apply S. lia.
  - rewrite (rd_ext mm mm') by (intros x Hx; apply S; lia). apply IH; [|exact C4]. intros c Hc. apply H. right. exact Hc.
Qed.
Lemma chunks_fchain mm fr : forall fuel h, (length fr <= fuel)%nat -> fchain mm h fr -> chunks fuel mm h = fr.
Proof.
  induction fr as [|b fr IH]; intros fuel h L C; cbn [fchain] in C.
  - subst. destruct fuel; reflexivity.
  - destruct C as (-> & C2 & C3 & C4). destruct fuel as [|f]; cbn [length] in L; [lia|]. cbn [chunks]. rewrite (proj2 (N.eqb_neq _ 0) C2), C3, (IH f) by (lia || exact C4). destruct b; reflexivity.
Qed.
Lemma write_next mm (b : block) nx : nx < W32 -> let mm' := wr mm (fst b + 4) (enc 4 nx) in
  dec (rd mm' (fst b) 4) = dec (rd mm (fst b) 4) /\ dec (rd mm' (fst b + 4) 4) = nx /\ (forall x, x < fst b + 4 \/ fst b + 8 <= x -> mm' x = mm x).
Proof.
  intros H. cbn zeta. assert (O : forall x, x < fst b + 4 \/ fst b + 8 <= x -> wr mm (fst b + 4) (enc 4 nx) x = mm x). { intros x Hx. apply wr_out. rewrite ChunkPoolProofs.len_enc. lia. }
  split; [|split; [|exact O]].
  - f_equal. apply rd_ext. intros x Hx. apply O. lia.
  - change 4%nat with (length (enc 4 nx)) at 2. rewrite rd_wr. apply dec_enc4. exact H.
Qed.
(** Unlinking a chunk that has a predecessor. *)
Lemma fchain_unlink mm pre (p o : block) post : forall h, fchain mm h (pre ++ p :: o :: post) -> pairwise (pre ++ p :: o :: post) -> Forall (fun b => 8 <= snd b) (pre ++ p :: o :: post) ->
  dec (rd mm (fst o + 4) 4) < W32 -> fchain (wr mm (fst p + 4) (enc 4 (dec (rd mm (fst o + 4) 4)))) h (pre ++ p :: post).
Proof.
  set (nx := dec (rd mm (fst o + 4) 4)). intros h C P M Hn. destruct (write_next mm p nx Hn) as (W1 & W2 & W3). set (mm' := wr mm (fst p + 4) (enc 4 nx)) in *.
  revert h C P M. induction pre as [|b pre IH]; intros h C P M; cbn [app fchain] in *.
  - destruct C as (C1 & C2 & C3 & C4 & C5 & C6 & C7). split; [exact C1|]. split; [exact C2|]. split; [congruence|]. rewrite W2. apply (fchain_ext mm); [|exact C7].
    intros c Hc x Hx. cbn [hdr fst snd] in Hx. apply W3. apply pairwise_cons in P. destruct P as [P _]. rewrite Forall_forall in P. specialize (P c (or_intror Hc)).
    rewrite Forall_forall in M. pose proof (M c (or_intror (or_intror Hc))) as M1. pose proof (M p (or_introl eq_refl)) as M2. cbn beta in M1, M2. unfold disjoint in P. lia.
  - destruct C as (C1 & C2 & C3 & C4). apply pairwise_cons in P. destruct P as [P1 P2]. inversion M as [|? ? M1 M2]; subst.
    assert (S : forall x, fst b <= x < fst b + 8 -> mm' x = mm x).
    { intros x Hx. apply W3. rewrite Forall_forall in P1. specialize (P1 p (in_elt p pre (o :: post))). rewrite Forall_forall in M2. pose proof (M2 p (in_elt p pre (o :: post))) as M3. cbn beta in M1, M3. unfold disjoint in P1. lia. }
    split; [reflexivity|]. split; [exact C2|]. split.
    + rewrite <- C3. f_equal. apply rd_ext. intros x Hx. apply S. lia.
    + rewrite (rd_ext mm mm') by (intros x Hx; apply S; lia). apply IH; assumption.
Qed.
