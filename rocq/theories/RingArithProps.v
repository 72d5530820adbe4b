(** Index and capacity arithmetic: C06, C07. *)
From Coq Require Import ZArith Bool.
From Verif Require Import RingModel RingArithModel RingArithProofs.
Local Open Scope Z_scope.

(** C06: the cell of a stream position is the position modulo the capacity, on the mask path and on the division path. *)
Theorem C06_index_is_modulo : forall N p, calcIndex N p = p mod N.
Proof. exact calcIndex_mod. Qed.
Print Assumptions C06_index_is_modulo.

(** C06: the mask path is taken exactly for powers of two. *)
Theorem C06_mask_path : forall N, pow2b N = true <-> exists k, 0 <= k /\ N = 2 ^ k.
Proof. intros N. split; [apply pow2b_spec|]. intros (k & Hk & ->). apply pow2b_complete, Hk. Qed.
Print Assumptions C06_mask_path.

Example C06_cases : calcIndex 1024 (10 ^ 15 + 7) = 7 + 0 + (10 ^ 15) mod 1024 /\ calcIndex 1000 (10 ^ 15 + 7) = 7 /\ pow2b 1024 = true /\ pow2b 1000 = false.
Proof. vm_compute. auto. Qed.

(** C07: the capacity of a double-mapped buffer is the smallest element count that is large enough and fills whole pages. *)
Theorem C07_capacity : forall page elem m, 0 < page -> 0 < elem -> 0 < m ->
  let r := align_with_page_size page elem m true in
  m <= r /\ (r * elem) mod page = 0 /\ (forall r', m <= r' -> (r' * elem) mod page = 0 -> r <= r').
Proof. exact align_result. Qed.
Print Assumptions C07_capacity.

(** C07: a linear buffer keeps the requested capacity. *)
Theorem C07_linear : forall page elem m, align_with_page_size page elem m false = m /\ buffer_size m false = 2 * m.
Proof. intros; split; reflexivity. Qed.
Print Assumptions C07_linear.

Example C07_case : align_with_page_size 4096 24 100 true = 512 /\ (512 * 24) mod 4096 = 0.
Proof. vm_compute. auto. Qed.
