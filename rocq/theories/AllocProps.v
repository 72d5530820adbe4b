(** Properties of the allocators: C40, C48, C50. *)
From Coq Require Import List NArith Bool Lia ZifyBool ZifyN.
From Verif Require Import AllocModel AllocSpec AllocProofs.
Import ListNotations.
Local Open Scope N_scope.

(** ** C40: after any history of requests on an arena anywhere in the address space, the blocks handed out since the last reset
    lie inside the arena and do not overlap. *)
Theorem C40_blocks : forall d c l, 0 < d -> d + c < 2 ^ 64 -> wellFormed l ->
  let (a, blocks) := run (newArena d c) [] l in
  Forall (within d c) blocks /\ ForallOrdPairs apart blocks /\ used a <= c /\ available a = c - used a.
Proof.
  intros d c l Hd Hc Wf. pose proof (run_inv d c Hd Hc l (newArena d c) [] Wf) as R. destruct (run (newArena d c) [] l) as [a bl].
  destruct R as [R1 R2 R3 R4 R5]; [constructor; cbn; try reflexivity; try constructor; lia|].
  split; [eapply Forall_impl; [|exact R4]; cbn; intros x Hx; unfold within; lia|]. split; [exact R5|]. split; [exact R3|].
  unfold available. rewrite R2. apply sub64_small; [exact R3|]. unfold W64. lia.
Qed.
Print Assumptions C40_blocks.

(** A request of at least one byte, after any history: it succeeds with an aligned block, or is refused; it is refused only when
    no aligned place of that size is left above the fill mark, and then nothing changes. *)
Theorem C40_request : forall d c l n al, 0 < d -> d + c < 2 ^ 64 -> wellFormed l -> powerOfTwo al -> 0 < n ->
  let (a, blocks) := run (newArena d c) [] l in
  match allocate a n al with
  | (a', Some p) => within d c (p, n) /\ p mod al = 0 /\ Forall (apart (p, n)) blocks /\ (forall z, d + used a <= z -> z mod al = 0 -> p <= z) /\ d + used a' = p + n
  | (a', None) => a' = a /\ forall z, d + used a <= z -> z mod al = 0 -> d + c < z + n
  end.
Proof.
  intros d c l n al Hd Hc Wf Ha Hn. pose proof (run_inv d c Hd Hc l (newArena d c) [] Wf) as R. destruct (run (newArena d c) [] l) as [a bl].
  assert (I : AInv d c a bl) by (apply R; constructor; cbn; try reflexivity; try constructor; lia). clear R.
  pose proof (alloc_step d c a bl n al Hd Hc Ha I) as S. destruct (allocate a n al) as [a' [p|]] eqn:E.
  - destruct S as (S1 & (S2 & S3 & S4) & S5). split; [exact S2|]. split; [apply S3; exact Hn|]. split; [exact S4|].
    destruct Ha as (k & -> & Hk). destruct I as [I1 I2 I3 I4 I5]. unfold allocate in E. rewrite (proj2 (N.eqb_neq n 0)), I1, I2 in E by lia. rewrite add64_small, sub64_small in E by (unfold W64; lia).
    pose proof (align_ok k n (d + used a) (c - used a) Hk Hn ltac:(unfold W64; lia) ltac:(lia)) as A. destruct (align (2 ^ k) n (d + used a) (c - used a)) as [q|]; [|discriminate].
    destruct A as (A1 & A2 & A3 & A4). injection E as <- <-. split; [exact A4|]. cbn [setUsed used]. rewrite (sub64_small q) by (unfold W64; lia). rewrite (add64_small (q - (d + used a))) by (unfold W64; lia). rewrite add64_small by (unfold W64; lia). lia.
  - destruct S as (_ & (S2 & _ & S3) & _). auto.
Qed.
Print Assumptions C40_request.

(** Requests of zero bytes ignore the alignment. *)
Theorem C40_zero_size_refuted : exists d c l n al p, wellFormed (l ++ [Alloc n al]) /\ snd (allocate (fst (run (newArena d c) [] l)) n al) = Some p /\ p mod al <> 0.
Proof. exists 4096, 64, [Alloc 1 1], 0, 16, 4097. split; [repeat constructor; [exists 0|exists 4]; split; reflexivity|]. split; [reflexivity|vm_compute; discriminate]. Qed.
Print Assumptions C40_zero_size_refuted.

Example C40_case : let l := [Alloc 3 1; Alloc 8 8; Alloc 100 4; Free; Alloc 5 16] in wellFormed l /\
  snd (run (newArena 4097 40) [] l) = [(4112, 5); (4104, 8); (4097, 3)] /\ used (fst (run (newArena 4097 40) [] l)) = 20 /\ snd (allocate (fst (run (newArena 4097 40) [] l)) 30 1) = None.
Proof. cbv zeta. split; [|vm_compute; repeat split]. repeat constructor; [exists 0|exists 3|exists 2|exists 4]; split; reflexivity. Qed.

(** ** C48: the block used for a map lies inside the raw block, is 16-byte aligned, has the byte that remembers the offset in
    front of it and inside the raw block, and that byte leads back to the raw address. *)
Theorem C48_recoverable : forall raw useful, 0 < useful -> raw + rawSize useful <= 2 ^ 64 ->
  let p := alignedOf raw in
  p mod 16 = 0 /\ raw < p /\ p + useful <= raw + rawSize useful /\ raw <= p - 1 < raw + rawSize useful /\
  offsetByte raw < 256 /\ rawOf p (offsetByte raw) = raw.
Proof.
  intros raw n Hn H p. unfold rawSize, kBlobAlignment in *. unfold p, alignedOf, kBlobAlignment. rewrite add64_small by (unfold W64; lia). change (16 - 1) with (2 ^ 4 - 1). rewrite ldiff_pow. change (2 ^ 4) with 16.
  pose proof (N.div_mod (raw + 16) 16 ltac:(discriminate)) as D. pose proof (N.mod_lt (raw + 16) 16 ltac:(discriminate)) as L. set (q := (raw + 16) / 16) in *. rewrite (N.mul_comm q 16).
  split; [rewrite N.mul_comm; apply N.mod_mul; discriminate|]. split; [lia|]. split; [lia|]. split; [lia|].
  unfold offsetByte, alignedOf, kBlobAlignment. rewrite add64_small by (unfold W64; lia). change (16 - 1) with (2 ^ 4 - 1). rewrite ldiff_pow. change (2 ^ 4) with 16. fold q. rewrite (N.mul_comm q 16).
  rewrite sub64_small by (unfold W64; lia). rewrite N.mod_small by lia. split; [lia|]. unfold rawOf. rewrite sub64_small by (unfold W64; lia). lia.
Qed.
Print Assumptions C48_recoverable.
Example C48_case : alignedOf 1000 = 1008 /\ offsetByte 1000 = 8 /\ rawOf 1008 8 = 1000 /\ alignedOf 1008 = 1024 /\ offsetByte 1008 = 16.
Proof. vm_compute. repeat split. Qed.

(** ** C50: room for the elements asked for.  Below the address space the request is the exact size; beyond it the product wraps,
    and a huge request is answered with a small block instead of an exception. *)
Theorem C50_request_partial : forall n size, 0 < size -> n * size < 2 ^ 64 -> alignedRequest n size = if n =? 0 then None else Some (n * size).
Proof. intros n size Hs H. unfold alignedRequest. rewrite N.mod_small by exact H. destruct (n =? 0) eqn:E; [apply N.eqb_eq in E; subst n; reflexivity|]. apply N.eqb_neq in E. rewrite (proj2 (N.eqb_neq _ _)) by nia. reflexivity. Qed.
Print Assumptions C50_request_partial.
Theorem C50_overflow_refuted : exists n size bytes, alignedRequest n size = Some bytes /\ bytes < n * size /\ n < 2 ^ 64.
Proof. exists (2 ^ 61 + 1), 8, 8. vm_compute. repeat split. Qed.
Print Assumptions C50_overflow_refuted.
Example C50_case : alignedRequest 5 8 = Some 40 /\ alignedRequest 0 8 = None.
Proof. split; reflexivity. Qed.
