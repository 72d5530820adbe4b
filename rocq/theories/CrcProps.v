(** Properties C27-C29 of the CRC engine. *)
From Coq Require Import List Arith NArith Bool Lia.
From Verif Require Import CrcModel CrcSpec CrcProofs.
Import ListNotations.
Local Open Scope N_scope.

(** A byte string. *)
Definition octets (l : list N) : Prop := Forall (fun b => b < 256) l.

(** The three flavours with their polynomials in the usual notation (highest coefficient first), which the code stores
    bit-reversed. *)
Definition flavours : list (traits * N) := [(IEEE, 0x04C11DB7); (CASTAGNOLI, 0x1EDC6F41); (MODBUS, 0x8005)].
Definition w_of (t : traits) : nat := N.to_nat (width t).

Lemma flavour_good t norm : In (t, norm) flavours ->
  goodR t /\ bitsMSB (w_of t) norm = bitsLSB (w_of t) (poly t) /\ bitsMSB (w_of t) (init t) = bitsLSB (w_of t) (init t) /\
  bitsMSB (w_of t) (xorOut t) = bitsLSB (w_of t) (xorOut t) /\ N.testbit (poly t) (width t - 1) = true.
Proof.
  intros [E|[E|[E|[]]]]; inversion E; subst; (split; [|repeat split]); (split; [reflexivity|]); repeat (split; [apply fit_lt; reflexivity|]); cbn; tauto.
Qed.

(** C27: the value returned for any byte string, with any vector width, is the remainder of the long division of the
    message, bit-reflected, with the final XOR. *)
Theorem C27_equals_long_division t norm W l : In (t, norm) flavours -> octets l ->
  bitsLSB (w_of t) (compute t W l) = xorFront (bitsMSB (w_of t) (xorOut t)) (spec_bits (w_of t) norm (init t) true l) /\
  compute t W l = computeScalar t l /\ compute t W l < 2 ^ width t.
Proof.
  intros HF Hl. destruct (flavour_good t norm HF) as (G & E1 & E2 & E3 & _). apply bytes_lt in Hl.
  destruct (reflected_division t G W l Hl) as (_ & D & _). destruct (compute_eq t G W l Hl) as [C1 C2].
  unfold spec_bits. rewrite E1, E2, E3. unfold w_of in *. rewrite <- D, bitsLSB_lxor. split; [|split].
  - rewrite C1. f_equal. apply N.lxor_comm.
  - congruence.
  - unfold compute, trunc. rewrite N.land_ones. apply N.mod_lt. apply N.pow_nonzero. discriminate.
Qed.
Print Assumptions C27_equals_long_division.

(** The same for every parameter set the engine accepts, also without reflection (no flavour of that kind exists yet). *)
Theorem C27_any_reflected t W l : goodR t -> octets l ->
  updateSimd t W (init t) l = updateScalar t (init t) l /\
  bitsLSB (w_of t) (updateScalar t (init t) l) = remainder (w_of t) (bitsLSB (w_of t) (poly t)) (bitsLSB (w_of t) (init t)) (msgBits true l).
Proof. intros G Hl. destruct (reflected_division t G W l (bytes_lt l Hl)) as (A & B & _). split; assumption. Qed.
Print Assumptions C27_any_reflected.

Theorem C27_any_unreflected t W l : goodL t -> octets l ->
  updateSimd t W (init t) l = updateScalar t (init t) l /\
  bitsMSB (w_of t) (updateScalar t (init t) l) = spec_bits (w_of t) (poly t) (init t) false l.
Proof. intros G Hl. destruct (nonreflected_division t G W l (bytes_lt l Hl)) as (A & B & _). split; assumption. Qed.
Print Assumptions C27_any_unreflected.

(** The published check values for "123456789", on both sides. *)
Definition check : list N := [0x31; 0x32; 0x33; 0x34; 0x35; 0x36; 0x37; 0x38; 0x39].
Example C27_case :
  octets check /\ compute IEEE 16 check = 0xCBF43926 /\ compute CASTAGNOLI 32 check = 0xE3069283 /\ compute MODBUS 64 check = 0x4B37 /\
  xorFront (bitsMSB 32 0xFFFFFFFF) (spec_bits 32 0x04C11DB7 0xFFFFFFFF true check) = bitsLSB 32 0xCBF43926.
Proof. split; [repeat constructor|]. vm_compute. repeat split. Qed.
(** CRC-32/BZIP2, a not reflected parameter set. *)
Example C27_unreflected_case :
  let t := {| width := 32; poly := 0x04C11DB7; init := 0xFFFFFFFF; xorOut := 0xFFFFFFFF; reflected := false |} in
  goodL t /\ compute t 16 check = 0xFC891918.
Proof. cbv zeta. split; [|vm_compute; reflexivity]. split; [reflexivity|]. repeat (split; [apply fit_lt; reflexivity|]). cbn. discriminate. Qed.

(** C28: any split of the message, any starting register, any mixture of scalar and vector updates. *)
Theorem C28_incremental t W1 W2 W3 crc a b : goodR t \/ goodL t -> crc < 2 ^ width t -> octets a -> octets b ->
  updateSimd t W3 crc (a ++ b) = updateSimd t W2 (updateSimd t W1 crc a) b /\
  updateScalar t crc (a ++ b) = updateSimd t W2 (updateScalar t crc a) b /\
  updateSimd t W3 crc a = updateScalar t crc a.
Proof.
  intros [G|G] Hc Ha Hb; apply bytes_lt in Ha, Hb; apply fit_lt in Hc; assert (Hab : bytes (a ++ b)) by (apply bytes_app; auto).
  - rewrite (updateScalar_bytes t G (length (a ++ b)) (a ++ b)), (updateScalar_bytes t G (length a) a) by auto.
    rewrite (updateSimd_bytes t G W3 (a ++ b)), (updateSimd_bytes t G W1 a), (updateSimd_bytes t G W3 a) by auto.
    rewrite (updateSimd_bytes t G W2 b) by (auto; apply fold_fit; auto). rewrite fold_left_app. auto.
  - rewrite !(updateSimdL t G), !(updateScalarL t G), fold_left_app. auto.
Qed.
Print Assumptions C28_incremental.

Example C28_case : goodR CASTAGNOLI /\ updateSimd CASTAGNOLI 16 0xFFFFFFFF (check ++ check ++ check) = updateSimd CASTAGNOLI 32 (updateScalar CASTAGNOLI 0xFFFFFFFF check) (check ++ check).
Proof. split; [apply (flavour_good CASTAGNOLI 0x1EDC6F41); cbn; auto|vm_compute; reflexivity]. Qed.

(** C29: bit strings that agree outside a window no wider than the register have different checksums. *)
Theorem C29_burst t norm W m1 m2 pre d1 d2 post : In (t, norm) flavours -> octets m1 -> octets m2 ->
  msgBits true m1 = pre ++ d1 ++ post -> msgBits true m2 = pre ++ d2 ++ post ->
  length d1 = length d2 -> N.of_nat (length d1) <= width t -> d1 <> d2 -> compute t W m1 <> compute t W m2.
Proof.
  intros HF H1 H2. destruct (flavour_good t norm HF) as (G & _ & _ & _ & Top). apply compute_burst; auto using bytes_lt.
Qed.
Print Assumptions C29_burst.

(** A single flipped bit. *)
Theorem C29_single_bit t norm W l1 b l2 j : In (t, norm) flavours -> octets l1 -> b < 256 -> octets l2 -> j < 8 ->
  compute t W (l1 ++ N.lxor b (2 ^ j) :: l2) <> compute t W (l1 ++ b :: l2).
Proof.
  intros HF H1 Hb H2 Hj. destruct (flavour_good t norm HF) as (G & _ & _ & _ & Top). pose proof G as (_ & _ & _ & _ & Hw).
  assert (F2 : fit 8 (2 ^ j)) by (apply fit_lt; apply N.pow_lt_mono_r; lia).
  assert (Fb : fit 8 (N.lxor b (2 ^ j))) by (apply fit_lxor; [apply fit_lt; exact Hb|exact F2]).
  apply (compute_burst t G Top W _ _ (msgBits true l1) (bitsLSB 8 (N.lxor b (2 ^ j))) (bitsLSB 8 b) (msgBits true l2)).
  - apply bytes_app. split; [apply bytes_lt, H1|]. constructor; [exact Fb|apply bytes_lt, H2].
  - apply bytes_app. split; [apply bytes_lt, H1|]. constructor; [apply fit_lt; exact Hb|apply bytes_lt, H2].
  - rewrite msgBits_app. reflexivity.
  - rewrite msgBits_app. reflexivity.
  - rewrite !bitsLSB_length. reflexivity.
  - rewrite bitsLSB_length. lia.
  - intros E. apply bits_inj_w in E; [|exact Fb|apply fit_lt; exact Hb].
    apply (f_equal (N.lxor b)) in E. rewrite <- N.lxor_assoc, N.lxor_nilpotent, N.lxor_0_l in E.
    revert E. apply N.pow_nonzero. discriminate.
Qed.
Print Assumptions C29_single_bit.

(** Any damage confined to as many consecutive bytes as the register has. *)
Theorem C29_damaged_bytes t norm W l1 d1 d2 l2 : In (t, norm) flavours -> octets l1 -> octets d1 -> octets d2 -> octets l2 ->
  length d1 = length d2 -> 8 * N.of_nat (length d1) <= width t -> d1 <> d2 -> compute t W (l1 ++ d1 ++ l2) <> compute t W (l1 ++ d2 ++ l2).
Proof.
  intros HF H1 Hd1 Hd2 H2 Hl Hn Hd. destruct (flavour_good t norm HF) as (G & _ & _ & _ & Top).
  apply (compute_burst t G Top W _ _ (msgBits true l1) (msgBits true d1) (msgBits true d2) (msgBits true l2)).
  - apply bytes_app. split; [apply bytes_lt, H1|]. apply bytes_app. split; apply bytes_lt; assumption.
  - apply bytes_app. split; [apply bytes_lt, H1|]. apply bytes_app. split; apply bytes_lt; assumption.
  - rewrite !msgBits_app. reflexivity.
  - rewrite !msgBits_app. reflexivity.
  - rewrite !msgBits_length. lia.
  - rewrite msgBits_length. lia.
  - intros E. apply Hd. apply msgBits_inj; [apply bytes_lt, Hd1|apply bytes_lt, Hd2|exact E].
Qed.
Print Assumptions C29_damaged_bytes.

(** Castagnoli and Modbus detect every odd number of flipped bits, at any distance. *)
Theorem C29_odd_errors t W m1 m2 : t = CASTAGNOLI \/ t = MODBUS -> octets m1 -> octets m2 ->
  parity (msgBits true m1) <> parity (msgBits true m2) -> compute t W m1 <> compute t W m2.
Proof.
  intros [ -> | -> ] H1 H2; apply compute_parity; auto using bytes_lt.
  - apply (flavour_good CASTAGNOLI 0x1EDC6F41); cbn; auto.
  - apply (flavour_good MODBUS 0x8005); cbn; auto.
Qed.
Print Assumptions C29_odd_errors.

(** Four damaged bytes inside a longer message; a flipped bit; three flipped bits far apart. *)
Example C29_case :
  octets (check ++ [0; 1; 2; 3] ++ check) /\ compute CASTAGNOLI 16 (check ++ [0; 1; 2; 3] ++ check) <> compute CASTAGNOLI 16 (check ++ [3; 2; 1; 0] ++ check) /\
  parity (msgBits true [1; 0; 0; 0; 2; 0; 0; 4]) <> parity (msgBits true [0; 0; 0; 0; 0; 0; 0; 0]).
Proof. split; [repeat constructor|]. vm_compute. split; discriminate. Qed.
