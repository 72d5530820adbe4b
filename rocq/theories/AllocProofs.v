(** Proofs about the arena. *)
From Coq Require Import List NArith Bool Lia ZifyBool ZifyN.
From Verif Require Import AllocModel AllocSpec.
Import ListNotations.
Local Open Scope N_scope.

Lemma W64_val : W64 = 18446744073709551616. Proof. reflexivity. Qed.
Lemma add64_small a b : a + b < W64 -> add64 a b = a + b.
Proof. intros H. apply N.mod_small. exact H. Qed.
Lemma sub64_small a b : b <= a -> a < W64 -> sub64 a b = a - b.
Proof. intros H1 H2. unfold sub64. replace (a + W64 - b) with (a - b + 1 * W64) by lia. rewrite N.mod_add by discriminate. apply N.mod_small. lia. Qed.

(** Rounding down to a multiple of a power of two. *)
Lemma ldiff_pow x k : N.ldiff x (2 ^ k - 1) = x / 2 ^ k * 2 ^ k.
Proof. replace (2 ^ k - 1) with (N.ones k) by (rewrite N.ones_equiv; lia). rewrite N.ldiff_ones_r, N.shiftr_div_pow2, N.shiftl_mul_pow2. reflexivity. Qed.
Lemma ceil_spec x b : 0 < b -> 0 < x -> let y := (x - 1 + b) / b * b in x <= y < x + b /\ y mod b = 0 /\ (forall z, x <= z -> z mod b = 0 -> y <= z).
Proof.
  intros Hb Hx y. pose proof (N.div_mod (x - 1 + b) b ltac:(lia)) as D. pose proof (N.mod_lt (x - 1 + b) b ltac:(lia)) as L.
  assert (E : y = b * ((x - 1 + b) / b)) by (unfold y; lia). split; [lia|]. split; [unfold y; apply N.mod_mul; lia|].
  intros z Hz M. pose proof (N.div_mod z b ltac:(lia)) as Dz. rewrite M in Dz. assert ((x - 1 + b) / b <= z / b) by (assert ((x - 1 + b) / b < z / b + 1); [apply N.div_lt_upper_bound; [lia|]; lia|lia]). rewrite E. rewrite Dz. rewrite N.add_0_r. apply N.mul_le_mono_l. exact H.
Qed.

(** std::align on an arena that lies in the address space. *)
Lemma align_ok k n p sp : k < 64 -> 0 < n -> p + sp <= W64 -> 0 < p ->
  match align (2 ^ k) n p sp with
  | Some q => p <= q /\ q + n <= p + sp /\ q mod 2 ^ k = 0 /\ (forall z, p <= z -> z mod 2 ^ k = 0 -> q <= z)
  | None => forall z, p <= z -> z mod 2 ^ k = 0 -> p + sp < z + n
  end.
Proof.
  intros Hk Hn Hp H0. unfold align. set (b := 2 ^ k). assert (Hb : 0 < b) by (unfold b; apply N.neq_0_lt_0, N.pow_nonzero; discriminate).
  assert (Hb64 : b < W64) by (unfold b, W64; apply N.pow_lt_mono_r; lia).
  assert (EL : forall x, N.ldiff x (b - 1) = x / b * b) by (intros x; unfold b; apply ldiff_pow).
  destruct (sp <? n) eqn:E1; [intros z Hz _; lia|]. apply N.ltb_ge in E1. cbv zeta.
  rewrite (sub64_small p 1) by lia. pose proof (ceil_spec p b Hb H0) as (C1 & C2 & C3). cbv zeta in C1, C2, C3.
  destruct (N.lt_ge_cases (p - 1 + b) W64) as [L|L].
  - rewrite add64_small by exact L. rewrite EL. set (y := (p - 1 + b) / b * b) in *. clearbody y.
    rewrite (sub64_small y p) by lia. destruct (sp - n <? y - p) eqn:E2; [apply N.ltb_lt in E2|apply N.ltb_ge in E2].
    + intros z Hz M. specialize (C3 z Hz M). lia.
    + split; [lia|]. split; [lia|]. split; [exact C2|exact C3].
  - assert (Hm : W64 mod b = 0). { unfold W64, b. replace (2 ^ 64) with (2 ^ (64 - k) * 2 ^ k) by (rewrite <- N.pow_add_r; f_equal; lia). apply N.mod_mul. apply N.pow_nonzero. discriminate. }
    unfold add64. replace ((p - 1 + b) mod W64) with (p - 1 + b - W64) by (apply N.mod_unique with 1; lia).
    rewrite EL. rewrite N.div_small by lia. cbn [N.mul]. unfold sub64. replace (0 + W64 - p) with (W64 - p) by lia. rewrite N.mod_small by lia.
    rewrite (proj2 (N.ltb_lt _ _)) by lia. intros z Hz M. 
    assert (W64 <= z). { destruct (N.lt_ge_cases z W64) as [X|X]; [|exact X]. exfalso.
      pose proof (N.div_mod z b ltac:(lia)) as Dz. rewrite M in Dz. pose proof (N.div_mod W64 b ltac:(lia)) as Dw. rewrite Hm in Dw.
      assert (z / b < W64 / b) by nia. nia. }
    lia.
Qed.

(** The arena keeps its geometry; every block lies below the fill mark. *)
Record AInv (d c : N) (a : arena) (blocks : list (N * N)) : Prop := {
  ai_data : data a = d; ai_cap : capacity a = c; ai_used : used a <= c;
  ai_in : Forall (fun x => d <= fst x /\ fst x + snd x <= d + used a) blocks;
  ai_apart : ForallOrdPairs apart blocks }.

Lemma alloc_step d c a bl n al : 0 < d -> d + c < W64 -> powerOfTwo al -> AInv d c a bl ->
  let (a', o) := allocate a n al in
  AInv d c a' (match o with Some p => (p, n) :: bl | None => bl end) /\
  match o with
  | Some p => within d c (p, n) /\ (0 < n -> p mod al = 0) /\ Forall (apart (p, n)) bl
  | None => a' = a /\ 0 < n /\ forall z, d + used a <= z -> z mod al = 0 -> d + c < z + n
  end /\ (forall z, d + used a <= z -> z mod al = 0 -> z + n <= d + c -> exists p, o = Some p /\ p <= z).
Proof.
  intros Hd Hc (k & -> & Hk) [I1 I2 I3 I4 I5]. unfold allocate. rewrite I1, I2.
  destruct (n =? 0) eqn:En; [apply N.eqb_eq in En; subst n|apply N.eqb_neq in En].
  - rewrite add64_small by lia. split.
    + constructor; try assumption.
      * constructor; [cbn [fst snd]; lia|exact I4].
      * constructor; [|exact I5]. rewrite Forall_forall in *. intros x Hx. specialize (I4 x Hx). unfold apart. cbn [fst snd]. lia.
    + split; [split; [unfold within; cbn [fst snd]; lia|split; [lia|rewrite Forall_forall in *; intros x Hx; specialize (I4 x Hx); unfold apart; cbn [fst snd]; lia]]|].
      intros z Hz _ _. eexists. split; [reflexivity|exact Hz].
  - rewrite add64_small, sub64_small by lia. pose proof (align_ok k n (d + used a) (c - used a) Hk ltac:(lia) ltac:(lia) ltac:(lia)) as A.
    destruct (align (2 ^ k) n (d + used a) (c - used a)) as [q|].
    + destruct A as (A1 & A2 & A3 & A4). rewrite (sub64_small q) by lia. rewrite (add64_small (q - (d + used a))) by lia. rewrite add64_small by lia. split.
      * constructor; cbn [setUsed data capacity used]; try assumption; [lia| |].
        -- constructor; [cbn [fst snd]; lia|]. eapply Forall_impl; [|exact I4]. cbn. intros x Hx. lia.
        -- constructor; [|exact I5]. rewrite Forall_forall in *. intros x Hx. specialize (I4 x Hx). unfold apart. cbn [fst snd]. lia.
      * split; [split; [unfold within; cbn [fst snd]; lia|split; [intros _; exact A3|rewrite Forall_forall in *; intros x Hx; specialize (I4 x Hx); unfold apart; cbn [fst snd]; lia]]|].
        intros z Hz Hm _. exists q. split; [reflexivity|]. apply A4; assumption.
    + split; [constructor; assumption|]. split; [split; [reflexivity|split; [lia|]]|].
      * intros z Hz Hm. specialize (A z Hz Hm). lia.
      * intros z Hz Hm Hf. specialize (A z Hz Hm). lia.
Qed.

Lemma run_inv d c : 0 < d -> d + c < W64 -> forall l a bl, wellFormed l -> AInv d c a bl -> let (a', bl') := run a bl l in AInv d c a' bl'.
Proof.
  intros Hd Hc. induction l as [|[n al| |] l IH]; intros a bl Wf I; cbn [run].
  - exact I.
  - inversion Wf; subst. pose proof (alloc_step d c a bl n al Hd Hc H1 I) as S. destruct (allocate a n al) as [a' o]. apply IH; [exact H2|apply S].
  - inversion Wf; subst. apply IH; [exact H2|exact I].
  - inversion Wf; subst. apply IH; [exact H2|]. destruct I. constructor; cbn; try assumption; try constructor. lia.
Qed.
