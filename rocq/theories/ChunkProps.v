(** Properties of the chunk pool and of the chunk-backed payload store: C38, C39. *)
From Coq Require Import List NArith Bool Lia Permutation ZifyBool ZifyN.
From Verif Require Import WireModel ChunkModel ChunkSpec ChunkPoolProofs ChunkProofs.
Import ListNotations.
Local Open Scope N_scope.

(** ** C38: the pool.

    At every moment: the number of resident chunks is the number of blocks upstream has given and not got back, and never exceeds
    the maximum; every block in use came from upstream; blocks in use do not overlap each other; the rest of the blocks are
    exactly the free ones, of the pool's chunk size. *)
Theorem C38_safe : forall cb mx s, 8 <= cb -> mx < 2 ^ 64 -> poolReach cb mx s ->
  resident (pl s) = N.of_nat (length (owned s)) /\ resident (pl s) <= mx /\
  exists free, Permutation (owned s) (held s ++ free) /\ freeCount (pl s) = N.of_nat (length free) /\
    Forall (fun x => snd x = cb) free /\ pairwise (owned s) /\ Forall (fun x => 0 < fst x /\ fst x + snd x <= 2 ^ 64) (owned s).
Proof.
  intros cb mx s Hc Hm R. destruct (pool_inv cb mx s Hc Hm R) as (B1 & B2 & fr & I).
  split; [exact (pi_resident _ _ _ _ _ I)|]. split; [rewrite (pi_resident _ _ _ _ _ I), <- B2; exact (pi_le _ _ _ _ _ I)|].
  exists (map (std (pl s)) fr). split; [exact (pi_perm _ _ _ _ _ I)|]. split; [rewrite map_length; exact (pi_count _ _ _ _ _ I)|].
  split; [rewrite Forall_forall; intros x Hx; apply in_map_iff in Hx; destruct Hx as (a & <- & _); exact B1|]. split; [exact (pi_pair _ _ _ _ _ I)|].
  pose proof (pi_pos _ _ _ _ _ I) as P. rewrite Forall_forall in *. intros x Hx. specialize (P x Hx). tauto.
Qed.
Print Assumptions C38_safe.

(** Every operation succeeds, gives back to upstream only blocks it gave, once each and not in use, and touches no memory of a
    block in use (other than a client's own write).  A block handed out came from upstream, has the size asked for and overlaps
    no block in use. *)
Theorem C38_step : forall cb mx s o, 8 <= cb -> mx < 2 ^ 64 -> poolReach cb mx s -> poolLegal s o ->
  exists s' c l, poolDo s o = Some (s', c, l) /\ callsOk (owned s) (held s') l /\ owned s' = upstream (owned s) l /\
    (forall x, In x (held s') -> In x (held s) -> (forall a d, o <> Write a d) -> sameIn x (pm s) (pm s')) /\
    match o with
    | Acquire _ => c = (0, 0) /\ s' = s \/ snd c = cb /\ held s' = c :: held s /\ In c (owned s') /\ Forall (disjoint c) (held s)
    | AcquireBig n _ => c = (0, 0) /\ s' = s \/ snd c = n /\ held s' = c :: held s /\ In c (owned s') /\ Forall (disjoint c) (held s)
    | Release x => held s' = drop x (held s) /\ owned s' = owned s
    | ReleaseBig x => held s' = drop x (held s) /\ owned s' = drop x (owned s)
    | Reclaim k => held s' = held s /\ freeCount (pl s') = N.min k (freeCount (pl s))
    | Write a d => held s' = held s /\ owned s' = owned s /\ pl s' = pl s
    end.
Proof.
  intros cb mx s o Hc Hm R Lg. destruct (pool_inv cb mx s Hc Hm R) as (B1 & B2 & fr & P).
  assert (Idm : forall x, sameIn x (pm s) (pm s)) by (intros x y _; reflexivity).
  assert (Es : forall s, {| pl := pl s; pm := pm s; owned := owned s; held := held s |} = s) by (intros []; reflexivity).
  destruct o as [up|bytes up|c0|c0|keep|a d]; cbn [poolDo poolLegal] in *.
  - destruct (acquire (pl s) (pm s) up) as [[p' c'] l'] eqn:A. destruct (do_acquire _ _ _ _ _ P up p' c' l' A Lg) as [(-> & -> & -> & _)|(fr' & Z & Z1 & Z2 & I' & _ & Z3)].
    + eexists _, _, _. split; [reflexivity|]. cbn [owned held pm empty snd N.eqb callsOk upstream]. rewrite Es. repeat (split; [exact I || reflexivity|]). split; [intros; apply Idm|left; auto].
    + eexists _, _, _. split; [reflexivity|]. cbn [owned held pm]. unfold empty. rewrite (proj2 (N.eqb_neq (snd c') 0)) by lia.
      pose proof (pi_pair' _ _ _ _ _ I') as X. cbn [app] in X. apply pairwise_cons in X. destruct X as [X _]. apply Forall_app in X. destruct X as [X _].
      split; [destruct Z3 as [[_ ->]|(_ & _ & _ & ->)]; exact I|]. split; [reflexivity|]. split; [intros; apply Idm|]. right. split; [congruence|]. split; [reflexivity|]. split; [|exact X].
      rewrite (pi_perm _ _ _ _ _ I'). left. reflexivity.
  - destruct Lg as [G0 G]. destruct (acquireOversized (pl s) bytes up) as [[p' c'] l'] eqn:A. destruct (do_acquireBig _ _ _ _ _ P bytes up p' c' l' A G0 G) as [(-> & -> & -> & _)|(-> & -> & Z1 & Z2 & I')].
    + eexists _, _, _. split; [reflexivity|]. cbn [owned held pm empty snd N.eqb callsOk upstream]. rewrite Es. repeat (split; [exact I || reflexivity|]). split; [intros; apply Idm|left; auto].
    + eexists _, _, _. split; [reflexivity|]. cbn [owned held pm]. unfold empty. cbn [snd]. rewrite (proj2 (N.eqb_neq bytes 0)) by lia.
      pose proof (pi_pair' _ _ _ _ _ I') as X. cbn [app] in X. apply pairwise_cons in X. destruct X as [X _]. apply Forall_app in X. destruct X as [X _].
      split; [exact I|]. split; [reflexivity|]. split; [intros; apply Idm|]. right. split; [reflexivity|]. split; [reflexivity|]. split; [left; reflexivity|exact X].
  - destruct Lg as [L1 L2]. destruct (release (pl s) (pm s) c0) as [p' m'] eqn:A. pose proof (drop_perm _ _ L1) as Pm.
    destruct (do_release _ _ _ _ _ P c0 p' m' _ A Pm L2) as (Z1 & Z2 & I' & O).
    assert (PW : pairwise (held s)) by (pose proof (pi_pair' _ _ _ _ _ P) as X; apply pairwise_app in X; tauto).
    apply (pairwise_perm _ _ Pm) in PW. apply pairwise_cons in PW. destruct PW as [PW _]. rewrite Forall_forall in PW.
    eexists _, _, _. split; [reflexivity|]. cbn [owned held pm callsOk upstream]. split; [exact I|]. split; [reflexivity|]. split; [|auto].
    intros x Hx _ _ y Hy. apply O. specialize (PW x Hx). unfold disjoint in PW. lia.
  - destruct (releaseOversized (pl s) c0) as [p' l'] eqn:A. destruct (do_releaseBig _ _ _ _ _ P c0 p' l' _ A (drop_perm _ _ Lg)) as (-> & Ho & D & Z1 & Z2 & I').
    assert (Ec : (fst c0, snd c0) = c0) by (destruct c0; reflexivity). eexists _, _, _. split; [reflexivity|]. cbn [owned held pm callsOk upstream]. rewrite Ec. split; [auto|]. split; [reflexivity|]. split; [intros; apply Idm|auto].
  - destruct (do_reclaim keep _ _ _ _ _ P) as (p' & l' & fr' & A & K & Z1 & Z2 & I' & Z3 & _). rewrite A. eexists _, _, _. split; [reflexivity|]. cbn [owned held pm pl]. split; [exact K|]. split; [reflexivity|]. split; [intros; apply Idm|].
    split; [reflexivity|]. rewrite (pi_count _ _ _ _ _ I'), (pi_count _ _ _ _ _ P). exact Z3.
  - eexists _, _, _. split; [reflexivity|]. cbn [owned held pm pl callsOk upstream]. split; [exact I|]. split; [reflexivity|]. split; [|auto]. intros x _ _ H. exfalso. exact (H a d eq_refl).
Qed.
Print Assumptions C38_step.

(** A request is refused exactly when nothing is free (or the block is oversized) and the maximum is reached. *)
Theorem C38_refused : forall cb mx s, 8 <= cb -> mx < 2 ^ 64 -> poolReach cb mx s ->
  (forall up s' c l, poolLegal s (Acquire up) -> poolDo s (Acquire up) = Some (s', c, l) -> (c = (0, 0) <-> freeCount (pl s) = 0 /\ resident (pl s) = mx)) /\
  (forall n up s' c l, poolLegal s (AcquireBig n up) -> poolDo s (AcquireBig n up) = Some (s', c, l) -> (c = (0, 0) <-> resident (pl s) = mx)).
Proof.
  intros cb mx s Hc Hm R. destruct (pool_inv cb mx s Hc Hm R) as (B1 & B2 & fr & P). pose proof (pi_count _ _ _ _ _ P) as C. split.
  - intros up s' c l Lg E. cbn [poolDo poolLegal] in *. destruct (acquire (pl s) (pm s) up) as [[p' c'] l'] eqn:A. injection E as _ <- _.
    destruct (do_acquire _ _ _ _ _ P up p' c' l' A Lg) as [(-> & -> & -> & -> & Z)|(fr' & Z & Z1 & Z2 & I' & _ & Z3)].
    + split; [intros _|reflexivity]. split; [exact C|congruence].
    + split; [intros ->; cbn [snd] in Z; lia|]. intros [X1 X2]. exfalso. destruct Z3 as [[Z3 _]|(Z3 & _ & _ & ->)].
      * rewrite Z3 in C. unfold len in C. cbn [length] in C. lia.
      * pose proof (pi_le _ _ _ _ _ I') as Le. cbn [upstream] in Le. rewrite len_cons in Le. rewrite <- (pi_resident _ _ _ _ _ P), X2, Z2, B2 in Le. lia.
  - intros n up s' c l [G0 G] E. cbn [poolDo] in E. destruct (acquireOversized (pl s) n up) as [[p' c'] l'] eqn:A. injection E as _ <- _.
    destruct (do_acquireBig _ _ _ _ _ P n up p' c' l' A G0 G) as [(-> & -> & -> & Z)|(-> & -> & Z1 & Z2 & I')].
    + split; [intros _; congruence|reflexivity].
    + split; [intros H; injection H as _ ->; lia|]. intros X2. exfalso. pose proof (pi_le _ _ _ _ _ I') as Le. cbn [upstream] in Le. rewrite len_cons in Le. rewrite <- (pi_resident _ _ _ _ _ P), X2, Z2, B2 in Le. lia.
Qed.
Print Assumptions C38_refused.

(** Destroying the pool when nothing is in use gives every block back, each once. *)
Theorem C38_destroy : forall cb mx s, 8 <= cb -> mx < 2 ^ 64 -> poolReach cb mx s -> held s = [] ->
  exists l, destroyPool (pl s) (pm s) = Some l /\ callsOk (owned s) [] l /\ upstream (owned s) l = [].
Proof. intros cb mx s Hc Hm R H. destruct (pool_inv cb mx s Hc Hm R) as (B1 & B2 & fr & P). rewrite H in P. exact (do_destroy _ _ _ _ P). Qed.
Print Assumptions C38_destroy.

(** A history: two chunks and a big block; one chunk is written over, both come back, one is handed out again, and then the
    maximum is reached. *)
Definition disjointB (x y : block) : bool := (fst x + snd x <=? fst y) || (fst y + snd y <=? fst x).
Definition goodB (a n : N) (ow : list block) : bool := (0 <? a) && (a + n <=? 2 ^ 64) && forallb (disjointB (a, n)) ow.
Definition eqB (x y : block) : bool := (fst x =? fst y) && (snd x =? snd y).
Definition poolLegalB (s : poolSys) (o : poolOp) : bool :=
  match o with
  | Acquire up => goodB up (chunkBytes (pl s)) (owned s)
  | AcquireBig n up => (0 <? n) && goodB up n (owned s)
  | Release c => existsb (eqB c) (held s) && (snd c =? chunkBytes (pl s))
  | ReleaseBig c => existsb (eqB c) (held s)
  | Reclaim _ => true
  | Write a l => existsb (fun c => (fst c <=? a) && (a + len l <=? fst c + snd c)) (held s)
  end.
Lemma goodB_ok a n ow : goodB a n ow = true -> goodAnswer a n ow.
Proof.
  unfold goodB, goodAnswer. rewrite !andb_true_iff, forallb_forall, Forall_forall. intros [[H1 H2] H3]. split; [lia|]. split; [apply N.leb_le; exact H2|].
  intros x Hx. specialize (H3 x Hx). unfold disjointB in H3. unfold disjoint. lia.
Qed.
Lemma eqB_in c l : existsb (eqB c) l = true -> In c l.
Proof. rewrite existsb_exists. intros ([x y] & H & E). destruct c as [a b]. unfold eqB in E. cbn [fst snd] in E. assert (a = x /\ b = y) by lia. destruct H0. subst. exact H. Qed.
Lemma poolLegalB_ok s o : poolLegalB s o = true -> poolLegal s o.
Proof.
  destruct o as [up|n up|c|c|k|a l]; cbn [poolLegalB poolLegal]; intros H.
  - apply goodB_ok. exact H.
  - apply andb_true_iff in H. destruct H as [H1 H2]. split; [lia|apply goodB_ok; exact H2].
  - apply andb_true_iff in H. destruct H as [H1 H2]. split; [apply eqB_in; exact H1|lia].
  - apply eqB_in. exact H.
  - exact I.
  - apply existsb_exists in H. destruct H as (c & H1 & H2). exists c. split; [exact H1|]. unfold inside. lia.
Qed.
Fixpoint playPool (s : poolSys) (l : list poolOp) : option (poolSys * list block) :=
  match l with
  | [] => Some (s, [])
  | o :: r => if poolLegalB s o then
                match poolDo s o with
                | Some (s1, c, _) => match playPool s1 r with Some (s2, cs) => Some (s2, c :: cs) | None => None end
                | None => None
                end
              else None
  end.
Lemma playPool_reach cb mx : forall l s s' cs, poolReach cb mx s -> playPool s l = Some (s', cs) -> poolReach cb mx s'.
Proof.
  induction l as [|o l IH]; intros s s' cs R E; cbn [playPool] in E; [injection E as <- <-; exact R|]. destruct (poolLegalB s o) eqn:L; [|discriminate]. destruct (poolDo s o) as [[[s1 c] ll]|] eqn:D; [|discriminate].
  destruct (playPool s1 l) as [[s2 cs2]|] eqn:P; [|discriminate]. injection E as <- <-. exact (IH s1 s2 cs2 (pool_step cb mx s o s1 c ll R (poolLegalB_ok s o L) D) P).
Qed.
Definition pool0 (cb mx : N) : poolSys := {| pl := newPool cb mx; pm := fun _ => 0; owned := []; held := [] |}.
Definition poolCase : list poolOp := [Acquire 1000; Acquire 2000; AcquireBig 100 3000; Write 1000 [1; 2; 3]; Release (1000, 64); Release (2000, 64); Acquire 4000; AcquireBig 10 5000].
Example C38_case :
  match playPool (pool0 64 3) poolCase with
  | Some (s, cs) => cs = [(1000, 64); (2000, 64); (3000, 100); (0, 0); (0, 0); (0, 0); (2000, 64); (0, 0)] /\
      held s = [(2000, 64); (3000, 100)] /\ resident (pl s) = 3 /\ freeCount (pl s) = 1 /\ poolLegalB s (Reclaim 0) = true
  | None => False
  end.
Proof. vm_compute. auto 10. Qed.
(** The same, brought to destruction. *)
Example C38_destroy_case :
  match playPool (pool0 64 3) (poolCase ++ [Release (2000, 64); ReleaseBig (3000, 100)]) with
  | Some (s, _) => held s = [] /\ owned s = [(2000, 64); (1000, 64)] /\ destroyPool (pl s) (pm s) = Some [UpFree 2000 64; UpFree 1000 64]
  | None => False
  end.
Proof. vm_compute. auto. Qed.

(** ** C39: payloads stay intact.

    In every history where payloads are stored in the order of their elements: as long as an element is being written or some
    attached reader has not consumed it, its payload reads back as it was stored, whatever chunk switches, housekeeping passes
    and use of a shared pool by others happened since. *)
Theorem C39_intact : forall keep cb mx s pos a d, 24 <= cb -> mx < 2 ^ 64 -> reach keep cb mx s ->
  In (pos, a, d) (recs s) -> needed s pos -> rd (sm s) a (length d) = d.
Proof. intros keep cb mx s pos a d Hc Hm R H N. destruct (reach_inv _ _ _ _ Hc Hm R) as (fr & l & I). destruct (si_loc _ _ _ _ _ _ I _ H N) as [E _]. exact E. Qed.
Print Assumptions C39_intact.

(** Also, the bytes lie in a block the pool obtained and which nobody else uses: another client can not come to own them. *)
Theorem C39_exclusive : forall keep cb mx s pos a d, 24 <= cb -> mx < 2 ^ 64 -> reach keep cb mx s ->
  In (pos, a, d) (recs s) -> needed s pos -> d <> [] ->
  exists x, In x (sow s) /\ inside a (len d) x /\ Forall (disjoint x) (soth s).
Proof.
  intros keep cb mx s pos a d Hc Hm R H N Hd. destruct (reach_inv _ _ _ _ Hc Hm R) as (fr & l & I). destruct (si_loc _ _ _ _ _ _ I _ H N) as [_ E]. pose proof (si_b _ _ _ _ _ _ I) as B.
  pose proof (bi_pool _ _ _ _ _ _ _ B) as P. pose proof (pi_pair' _ _ _ _ _ P) as PW. apply pairwise_app in PW. destruct PW as (PW & _). apply pairwise_app in PW. destruct PW as (_ & _ & PW).
  assert (X : exists x, In x (bheld (sb s) l) /\ inside a (len d) x).
  { destruct E as [E|[(E1 & E2 & E3 & _)|(x & E1 & E2 & E3 & _)]]; [contradiction| |].
    - exists (head (sb s)). split; [apply in_or_app; right; unfold headBlocks; rewrite (proj2 (N.eqb_neq _ _) E1); left; reflexivity|].
      pose proof (bi_head _ _ _ _ _ _ _ B) as Hh. unfold inside. destruct (Hh E1) as (Y1 & Y2). lia.
    - exists (blk x). split; [apply in_or_app; left; apply in_map; exact E1|]. unfold inside. lia. }
  destruct X as (x & X1 & X2). exists x. split; [rewrite (pi_perm _ _ _ _ _ P); apply in_or_app; left; apply in_or_app; left; exact X1|]. split; [exact X2|].
  rewrite Forall_forall. intros y Hy. exact (PW x y X1 Hy).
Qed.
Print Assumptions C39_exclusive.

(** No step of such a history is undefined, none gives back a block that is in use elsewhere or was not obtained, none changes
    memory in use elsewhere. *)
Theorem C39_progress : forall keep cb mx s a, 24 <= cb -> mx < 2 ^ 64 -> reach keep cb mx s -> legal s a ->
  exists s' cl, exec s a = Some (s', cl) /\ callsOk (sow s) (soth s') cl /\ sow s' = upstream (sow s) cl /\
    ((forall x d, a <> Other (Write x d)) -> forall x, In x (soth s') -> In x (soth s) -> sameIn x (sm s) (sm s')).
Proof.
  intros keep cb mx s a Hc Hm R Lg. destruct (reach_inv _ _ _ _ Hc Hm R) as (fr & l & I). destruct (exec_ok _ _ _ _ _ _ _ I Lg) as (s' & cl & fr' & l' & E & I' & K & U & Q).
  exists s', cl. split; [exact E|]. split; [exact K|]. split; [exact U|]. intros X. apply Q. destruct a as [| | | | | | |[]]; try exact Logic.I. exfalso. exact (X _ _ eq_refl).
Qed.
Print Assumptions C39_progress.

(** A store either fails with an empty span and leaves the other payloads alone, or records the whole payload. *)
Theorem C39_store : forall keep cb mx s i blob up s' cl, 24 <= cb -> mx < 2 ^ 64 -> reach keep cb mx s -> legal s (Store i blob up) -> exec s (Store i blob up) = Some (s', cl) ->
  (forall r, In r (recs s) -> posOf r <> pub s + i -> In r (recs s')) /\
  ((exists a, In (pub s + i, a, blob) (recs s')) \/ sp s' = sp s /\ resident (sp s) = mx /\ blob <> []).
Proof.
  intros keep cb mx s i blob up s' cl Hc Hm R (L1 & L2 & L3) E. destruct (reach_inv _ _ _ _ Hc Hm R) as (fr & l & I). pose proof (si_b _ _ _ _ _ _ I) as B.
  cbn [exec] in E. destruct (serialiseBlob (sb s) (sp s) (sm s) blob (pub s + i) up) as [[[[b' p'] m'] c] cl'] eqn:S. injection E as <- _. cbn [recs sp].
  set (kept := filter (fun r => negb (posOf r =? pub s + i)) (recs s)).
  assert (Hk : forall r, In r (recs s) -> posOf r <> pub s + i -> In r kept) by (intros r H1 H2; apply filter_In; split; [exact H1|]; rewrite (proj2 (N.eqb_neq _ _) H2); reflexivity).
  split; [intros r H1 H2; destruct (snd c =? len blob); [right|]; auto|].
  destruct (snd c =? len blob) eqn:Ec; [left; exists (fst c); left; reflexivity|right].
  assert (Hn : blob <> []). { intros ->. apply N.eqb_neq in Ec. apply Ec. assert (Hp : pub s + i < 2 ^ 64) by (pose proof (si_64 _ _ _ _ _ _ I); lia).
    destruct (serialise_ok _ _ _ _ _ _ _ _ _ _ _ _ _ _ _ B Hp L3 S) as (fr' & l' & _ & _ & _ & _ & _ & _ & _ & _ & [ -> |S9] & _); [reflexivity|exact S9]. }
  unfold serialiseBlob in S. cbv zeta in S. destruct ((snd (head (sb s)) =? 0) || (snd (head (sb s)) <? headOffset (sb s) + len blob)); [|injection S as <- <- <- <- <-; cbn [snd] in Ec; rewrite N.eqb_refl in Ec; discriminate].
  destruct (if negb (snd (head (sb s)) =? 0) then sealHead (sb s) (sm s) (pub s + i) else (sb s, sm s)) as [b1 m1].
  destruct (usub (bChunkBytes (sb s)) headerSize <? len blob).
  - unfold acquireOversized in S. destruct (maxChunks (sp s) <=? resident (sp s)) eqn:Em.
    + cbn [snd N.eqb] in S. injection S as <- <- <- <- <-. split; [reflexivity|]. split; [|exact Hn]. pose proof (bi_pool _ _ _ _ _ _ _ B) as P. pose proof (pi_le _ _ _ _ _ P). pose proof (pi_resident _ _ _ _ _ P). pose proof (si_mx _ _ _ _ _ _ I). apply N.leb_le in Em. lia.
    + cbn [snd] in S. rewrite (proj2 (N.eqb_neq _ _)) in S by (unfold headerSize; lia). injection S as <- <- <- <- <-. cbn [snd] in Ec. rewrite N.eqb_refl in Ec. discriminate.
  - pose proof (bi_24 _ _ _ _ _ _ _ B) as H24. unfold acquire in S. destruct (negb (freeHead (sp s) =? 0)).
    + cbn [snd] in S. rewrite (proj2 (N.eqb_neq _ _)) in S by lia. injection S as <- <- <- <- <-. cbn [snd] in Ec. rewrite N.eqb_refl in Ec. discriminate.
    + destruct (maxChunks (sp s) <=? resident (sp s)) eqn:Em.
      * cbn [snd N.eqb] in S. injection S as <- <- <- <- <-. split; [reflexivity|]. split; [|exact Hn]. pose proof (bi_pool _ _ _ _ _ _ _ B) as P. pose proof (pi_le _ _ _ _ _ P). pose proof (pi_resident _ _ _ _ _ P). pose proof (si_mx _ _ _ _ _ _ I). apply N.leb_le in Em. lia.
      * cbn [snd] in S. rewrite (proj2 (N.eqb_neq _ _)) in S by lia. injection S as <- <- <- <- <-. cbn [snd] in Ec. rewrite N.eqb_refl in Ec. discriminate.
Qed.
Print Assumptions C39_store.

(** Nothing leaks: once every attached reader has passed every position a payload was stored for, housekeeping leaves no chunk
    in the buffer's hands. *)
Theorem C39_all_returned : forall keep cb mx s deep s' cl, 24 <= cb -> mx < 2 ^ 64 -> reach keep cb mx s ->
  readers s <> [] -> (forall r, In r (readers s) -> top s <= r) -> exec s (House deep) = Some (s', cl) ->
  resident (sp s') = N.of_nat (length (soth s')) + freeCount (sp s').
Proof.
  intros keep cb mx s deep s' cl Hc Hm R Hr Ht E. destruct (reach_inv _ _ _ _ Hc Hm R) as (fr & l & I). pose proof (si_b _ _ _ _ _ _ I) as B. cbn [exec] in E.
  assert (F : (length l <= length (sow s))%nat).
  { pose proof (pi_len _ _ _ _ _ (bi_pool _ _ _ _ _ _ _ B)) as L. unfold bheld in L. rewrite !len_app', len_map in L. unfold len in L. unfold block in *. lia. }
  destruct (house_ok deep (minReader (readers s)) (soth s) l _ _ _ _ _ (length (sow s)) B F) as (b' & p' & m' & cl' & fr' & l' & E' & S1 & S2 & S3 & S4 & S5 & S6 & S7 & S8 & S9 & S10 & S11).
  rewrite E' in E. injection E as <- _. cbn [sp soth].
  assert (Hmin : top s <= minReader (readers s)) by (unfold minReader; destruct (readers s) as [|r0 rs]; [congruence|]; apply Ht; apply min_in).
  assert (Hb : bheld b' l' = []).
  { apply S11; [intros y Hy; pose proof (si_thr _ _ _ _ _ _ I y Hy); lia|]. intros X. pose proof (si_head _ _ _ _ _ _ I X). lia. }
  pose proof (bi_pool _ _ _ _ _ _ _ S1) as P. rewrite Hb in P. cbn [app] in P. rewrite (pi_resident _ _ _ _ _ P), (pi_count _ _ _ _ _ P), (pi_len _ _ _ _ _ P). reflexivity.
Qed.
Print Assumptions C39_all_returned.

(** When the buffer goes, all its chunks return to the pool, and what others use stays as it was. *)
Theorem C39_destroy : forall keep cb mx s, 24 <= cb -> mx < 2 ^ 64 -> reach keep cb mx s ->
  exists p m cl, drainAll (length (sow s)) (sb s) (sp s) (sm s) = Some (p, m, cl) /\ callsOk (sow s) (soth s) cl /\
    resident p = N.of_nat (length (soth s)) + freeCount p /\ resident p = N.of_nat (length (upstream (sow s) cl)) /\ Forall (fun x => sameIn x (sm s) m) (soth s) /\
    (soth s = [] -> exists cl2, destroyPool p m = Some cl2 /\ callsOk (upstream (sow s) cl) [] cl2 /\ upstream (sow s) (cl ++ cl2) = []).
Proof.
  intros keep cb mx s Hc Hm R. destruct (reach_inv _ _ _ _ Hc Hm R) as (fr & l & I). pose proof (si_b _ _ _ _ _ _ I) as B.
  assert (F : (length l <= length (sow s))%nat).
  { pose proof (pi_len _ _ _ _ _ (bi_pool _ _ _ _ _ _ _ B)) as L. unfold bheld in L. rewrite !len_app', len_map in L. unfold len in L. unfold block in *. lia. }
  destruct (drainAll_ok (soth s) l _ _ _ _ _ (length (sow s)) B F) as (p & m & cl & fr' & E & P & K & _ & _ & S). exists p, m, cl. split; [exact E|]. split; [exact K|].
  split; [rewrite (pi_resident _ _ _ _ _ P), (pi_count _ _ _ _ _ P), (pi_len _ _ _ _ _ P); reflexivity|]. split; [exact (pi_resident _ _ _ _ _ P)|]. split; [exact S|].
  intros Ho. rewrite Ho in P. destruct (do_destroy _ _ _ _ P) as (cl2 & D1 & D2 & D3). exists cl2. split; [exact D1|]. split; [exact D2|]. rewrite upstream_app. exact D3.
Qed.
Print Assumptions C39_destroy.

(** Histories of the buffer, executable. *)
Definition legalB (s : sys) (a : action) : bool :=
  match a with
  | Reserve n => pub s + n <? 2 ^ 64
  | Store i blob up => (i <? nres s) && (nextPos s <=? pub s + i) && goodB up (chunkBytes (sp s)) (sow s) && goodB up (24 + len blob) (sow s)
  | Publish k => k <=? nres s
  | Attach | House _ => true
  | Detach i => Nat.ltb i (length (readers s))
  | Consume i k => match nth_error (readers s) i with Some r => r + k <=? pub s | None => false end
  | Other o => poolLegalB (others s) o
  end.
Lemma legalB_ok s a : legalB s a = true -> legal s a.
Proof.
  destruct a as [n|i blob up|k| |i|i k|deep|o]; cbn [legalB legal]; intros H.
  - apply N.ltb_lt. exact H.
  - apply andb_true_iff in H. destruct H as [H H4]. apply andb_true_iff in H. destruct H as [H H3]. split; [lia|]. split; [lia|]. intros n [ -> | -> ]; apply goodB_ok; assumption.
  - lia.
  - exact I.
  - apply PeanoNat.Nat.ltb_lt. exact H.
  - destruct (nth_error (readers s) i) as [r|]; [|discriminate]. exists r. split; [reflexivity|lia].
  - exact I.
  - apply poolLegalB_ok. exact H.
Qed.
Fixpoint play (check : bool) (s : sys) (l : list action) : option sys :=
  match l with
  | [] => Some s
  | a :: r => if negb check || legalB s a then match exec s a with Some (s1, _) => play check s1 r | None => None end else None
  end.
Lemma play_reach keep cb mx : forall l s s', reach keep cb mx s -> play true s l = Some s' -> reach keep cb mx s'.
Proof.
  induction l as [|a l IH]; intros s s' R E; cbn [play negb orb] in E; [injection E as <-; exact R|]. destruct (legalB s a) eqn:L; [|discriminate]. destruct (exec s a) as [[s1 ll]|] eqn:D; [|discriminate].
  exact (IH s1 s' (reach_step keep cb mx s a s1 ll R (legalB_ok s a L) D) E).
Qed.
Definition sys0 (keep cb mx : N) : sys :=
  {| sb := newBuffer keep cb; sp := newPool cb mx; sm := fun _ => 0; sow := []; soth := []; pub := 0; nres := 0; nextPos := 0; readers := []; recs := []; top := 0 |}.

(** Three payloads over two chunks, two readers at different positions, another user of the pool, two housekeeping passes: the
    first chunk comes back when the slow reader passes it, is reused by the other user and written over; the payloads of the
    second chunk are unharmed. *)
Definition chunkCase : list action :=
  [Attach; Attach; Reserve 3; Store 0 [1; 2; 3; 4] 1000; Store 1 (repeat 5 40) 2000; Store 2 [6] 3000; Publish 3; Consume 0 3; House true;
   Consume 1 1; House false; Other (Acquire 5000); Other (Write 1000 [9; 9; 9; 9; 9; 9; 9; 9; 9; 9])].
Example C39_case :
  match play true (sys0 1 64 10) chunkCase with
  | Some s => recs s = [(2, 3024, [6]); (1, 2024, repeat 5 40); (0, 1024, [1; 2; 3; 4])] /\ readers s = [3; 1] /\ soth s = [(1000, 64)] /\
      rd (sm s) 2024 40 = repeat 5 40 /\ rd (sm s) 3024 1 = [6] /\ resident (sp s) = 3 /\ snd (head (sb s)) = 64
  | None => False
  end.
Proof. vm_compute. repeat split. Qed.
(** Everything consumed: housekeeping returns the chunks. *)
Example C39_all_returned_case :
  match play true (sys0 1 64 10) (chunkCase ++ [Consume 1 2]) with
  | Some s => readers s = [3; 3] /\ top s = 3 /\
      match exec s (House true) with Some (s', cl) => cl = [UpFree 3000 64] /\ resident (sp s') = 2 /\ soth s' = [(1000, 64)] /\ freeCount (sp s') = 1 | None => False end
  | None => False
  end.
Proof. vm_compute. repeat split. Qed.

(** ** Payloads stored out of order are lost.

    [storeBlob] takes an element index, and nothing asks callers to go through the indices in order.  Storing for element 1 and
    then for element 0, with a chunk switch in between, seals the chunk that holds payload 1 with threshold 0, so the next
    housekeeping pass frees it although element 1 is not even published: the next user of the pool writes over it. *)
Definition outOfOrder : list action :=
  [Attach; Reserve 2; Store 1 [7; 7; 7; 7] 1000; Store 0 (repeat 5 40) 2000; House false; Other (Acquire 3000); Other (Write 1024 [9]); Publish 2].
Theorem C39_out_of_order_refuted :
  exists s, play false (sys0 1 64 10) outOfOrder = Some s /\ In (1, 1024, [7; 7; 7; 7]) (recs s) /\ needed s 1 /\ rd (sm s) 1024 4 <> [7; 7; 7; 7] /\ soth s = [(1000, 64)].
Proof.
  destruct (play false (sys0 1 64 10) outOfOrder) as [s|] eqn:E.
  - exists s. split; [reflexivity|].
    assert (X : match play false (sys0 1 64 10) outOfOrder with Some s => recs s = [(0, 2024, repeat 5 40); (1, 1024, [7; 7; 7; 7])] /\ readers s = [0] /\ rd (sm s) 1024 4 = [9; 7; 7; 7] /\ soth s = [(1000, 64)] | None => False end) by (vm_compute; repeat split).
    rewrite E in X. destruct X as (X1 & X2 & X3 & X4). split; [rewrite X1; right; left; reflexivity|]. split; [right; exists 0; rewrite X2; split; [left; reflexivity|lia]|]. split; [rewrite X3; discriminate|exact X4].
  - assert (X : match play false (sys0 1 64 10) outOfOrder with Some _ => True | None => False end) by (vm_compute; exact I). rewrite E in X. destruct X.
Qed.
Print Assumptions C39_out_of_order_refuted.

(** ** With no reader attached nothing is ever reclaimed: a pool with a maximum refuses payloads for good.

    [min_reader_position] answers 0 when there are no readers.  Each of these payloads is published and no reader exists, yet
    housekeeping returns nothing, and the third store fails. *)
Theorem C39_no_reader_refuted :
  match play true (sys0 1 64 2) [Reserve 1; Store 0 (repeat 5 40) 1000; Publish 1; Reserve 1; Store 0 (repeat 6 40) 2000; Publish 1; House true] with
  | Some s => readers s = [] /\ resident (sp s) = 2 /\ freeCount (sp s) = 0 /\
      match play true s [Reserve 1; Store 0 (repeat 7 40) 3000] with Some s' => forallb (fun r => negb (posOf r =? 2)) (recs s') = true | None => False end
  | None => False
  end.
Proof. vm_compute. repeat split. Qed.
Print Assumptions C39_no_reader_refuted.
