From Coq Require Import List ZArith Bool Lia.
From Verif Require Import Base RingModel RingSpec RingArithProofs.
Import ListNotations.
Local Open Scope Z_scope.
Require Import ZifyBool ZifyNat.
Ltac Zify.zify_post_hook ::= idtac.

Lemma mod_inj a b N : 0 < N -> a mod N = b mod N -> -N < a - b < N -> a = b.
Proof.
  intros HN E H. pose proof (Z.div_mod a N ltac:(lia)) as A1. pose proof (Z.div_mod b N ltac:(lia)) as A2. rewrite E in A1.
  assert (a / N = b / N) by (clear E; nia). congruence.
Qed.

Lemma wsub_id a b : 0 <= a - b < 2 ^ 64 -> wsub a b = a - b.
Proof. intros H. unfold wsub. apply Z.mod_small. exact H. Qed.

Section Proofs.
Context {A : Type}.
Implicit Types (c : config A) (s : ring A) (a : aring A).

Definition lim : Z := 2 ^ 62.

Record rrel (N pubv wm : Z) (r : reader) (p : areader) : Prop := {
  rr_seq : r_seq r = p_pos p;
  rr_cached : r_cached r = p_pos p;
  rr_first : r_first r = p_first p;
  rr_req : r_req r = p_req p;
  rr_done : r_consumed r = p_done p;
  rr_spans : r_spans r = map (fun l => (p_pos p mod N, l)) (p_spans p);
  rr_pos : wm <= p_pos p <= pubv;
  rr_f : match p_first p with Some f => 0 <= f /\ p_pos p + f <= pubv | None => p_spans p = [] /\ p_req p = None end;
  rr_l : forall l, In l (p_spans p) -> exists f, p_first p = Some f /\ 0 <= l <= f;
  rr_q : forall n, p_req p = Some n -> 0 <= n /\ p_pos p + n <= pubv }.

Definition orel N pubv wm (r : option reader) (p : option areader) : Prop :=
  match r, p with Some r, Some p => rrel N pubv wm r p | None, None => True | _, _ => False end.

Record Rel c s a : Prop := {
  R_cap : 0 < cap c <= lim;
  R_pub : pub s = len (a_stream a);
  R_res : res s = total a;
  R_wm : wmark s = a_wm a /\ 0 <= a_wm a <= len (a_stream a);
  R_req : w_req (wr s) = a_req a;
  R_inst : w_inst (wr s) = a_inst a;
  R_len : w_len (wr s) = len (a_pend a);
  R_off : w_offset (wr s) = if a_fresh a then 0 else len (a_stream a);
  R_fresh : a_fresh a = true -> a_pend a = [];
  R_idx : 0 <= w_index (wr s) < cap c;
  R_pidx : a_pend a <> [] -> w_index (wr s) = len (a_stream a) mod cap c /\ w_sidx (wr s) = w_index (wr s);
  R_dead : a_inst a = 0%nat -> a_pend a = [];
  R_reqok : forall q, a_req a = Some q -> 0 <= q <= len (a_pend a);
  R_pend : len (a_pend a) <= cap c;
  R_rd : Forall2 (orel (cap c) (len (a_stream a)) (a_wm a)) (readers s) (a_readers a);
  R_room : forall p, In p (positions a) -> total a - p <= cap c;
  R_mem : forall (q : nat) v, nth_error (a_stream a) q = Some v -> (exists p, In p (positions a) /\ p <= Z.of_nat q) ->
          mem s (phys c (Z.of_nat q mod cap c)) = v /\ mem s (phys c (Z.of_nat q mod cap c + cap c)) = v;
  R_pmem : forall (i : nat) v, nth_error (a_pend a) i = Some (Some v) -> mem s (phys c (w_index (wr s) + Z.of_nat i)) = v }.

Lemma len_nn {B} (l : list B) : 0 <= len l. Proof. unfold len; lia. Qed.
Lemma len_app {B} (l1 l2 : list B) : len (l1 ++ l2) = len l1 + len l2.
Proof. unfold len. rewrite app_length. lia. Qed.
Lemma len_upd {B} (l : list B) i v : len (upd l i v) = len l.
Proof. unfold len. rewrite length_upd. reflexivity. Qed.

(** *** Reader lists *)
Lemma Forall2_nth {B C} (P : B -> C -> Prop) l1 l2 i y : Forall2 P l1 l2 -> nth_error l2 i = Some y -> exists x, nth_error l1 i = Some x /\ P x y.
Proof.
  intros H. revert i. induction H as [|x y' l1 l2 Hxy H IH]; intros [|i] E; simpl in *; try discriminate.
  - inversion E; subst; eauto.
  - apply IH, E.
Qed.
Lemma Forall2_upd {B C} (P : B -> C -> Prop) l1 l2 i x y : Forall2 P l1 l2 -> P x y -> Forall2 P (upd l1 i x) (upd l2 i y).
Proof.
  intros H Hp. revert i. induction H as [|x' y' l1 l2 Hxy H IH]; intros [|i]; simpl; constructor; auto.
Qed.
Lemma Forall2_len {B C} (P : B -> C -> Prop) l1 l2 : Forall2 P l1 l2 -> length l1 = length l2.
Proof. intros H; induction H; cbn; congruence. Qed.
Lemma Forall2_mono {B C} (P Q : B -> C -> Prop) l1 l2 : (forall x y, P x y -> Q x y) -> Forall2 P l1 l2 -> Forall2 Q l1 l2.
Proof. intros HPQ H; induction H; constructor; auto. Qed.

Lemma agetr_rel c s a i p : Rel c s a -> agetr a i = Some p ->
  exists r, getr s i = Some r /\ rrel (cap c) (len (a_stream a)) (a_wm a) r p.
Proof.
  intros H. unfold agetr, getr. destruct (nth_error (a_readers a) i) as [[p'|]|] eqn:E; intros G; inversion G; subst.
  destruct (Forall2_nth _ _ _ _ _ (R_rd _ _ _ H) E) as ([r|] & Er & Hr); [|destruct Hr].
  exists r. rewrite Er. auto.
Qed.

Lemma in_positions a i p : agetr a i = Some p -> In (p_pos p) (positions a).
Proof.
  unfold agetr, positions. destruct (nth_error (a_readers a) i) as [[p'|]|] eqn:E; intros H; inversion H; subst.
  apply in_flat_map. exists (Some p). split; [eapply nth_error_In; exact E|left; reflexivity].
Qed.

Lemma positions_nth a p : In p (positions a) -> exists i r, agetr a i = Some r /\ p_pos r = p.
Proof.
  unfold positions. intros H. apply in_flat_map in H. destruct H as [[r|] [H1 H2]]; [|destruct H2].
  destruct H2 as [H2|[]]. destruct (In_nth_error _ _ H1) as [i Hi]. exists i, r. unfold agetr. rewrite Hi. auto.
Qed.

Lemma positions_range c s a p : Rel c s a -> In p (positions a) -> a_wm a <= p <= len (a_stream a).
Proof.
  intros H Hp. apply positions_nth in Hp. destruct Hp as (i & r & Hi & <-).
  destruct (agetr_rel _ _ _ _ _ H Hi) as (r' & _ & Hr). apply (rr_pos _ _ _ _ _ Hr).
Qed.

Lemma positions_upd a i x p : In p (positions (asetr a i x)) -> (exists r, x = Some r /\ p = p_pos r) \/ In p (positions a).
Proof.
  unfold positions, asetr; cbn [a_readers]. intros H. apply in_flat_map in H. destruct H as [o [H1 H2]].
  destruct (In_nth_error _ _ H1) as [j Hj]. apply nth_upd_inv in Hj. destruct Hj as [[_ ->]|[_ Hj]].
  - left. destruct x as [r|]; [|destruct H2]. destruct H2 as [<-|[]]. eauto.
  - right. apply in_flat_map. exists o. split; [eapply nth_error_In; exact Hj|exact H2].
Qed.

Lemma seqs_eq N pv wm rs ps : Forall2 (orel N pv wm) rs ps ->
  flat_map (fun o => match o with Some r => [r_seq r] | None => [] end) rs =
  flat_map (fun o => match o with Some r => [p_pos r] | None => [] end) ps.
Proof.
  intros H; induction H as [|[r|] [p|] rs ps Hr H IH]; cbn; try contradiction; try reflexivity; rewrite IH; [|reflexivity].
  rewrite (rr_seq _ _ _ _ _ Hr). reflexivity.
Qed.

Lemma fold_min_lr l x : fold_left Z.min l x = fold_right Z.min x l.
Proof. apply fold_symmetric; intros; lia. Qed.

Lemma minReader_rel c s a : Rel c s a -> minReader (readers s) = match slowest (positions a) with Some p => p | None => 0 end.
Proof.
  intros H. unfold minReader, positions. rewrite (seqs_eq _ _ _ _ _ (R_rd _ _ _ H)).
  destruct (flat_map _ (a_readers a)); [reflexivity|]. cbn. apply fold_min_lr.
Qed.

Lemma noReaders_rel c s a : Rel c s a -> noReaders (readers s) = match slowest (positions a) with Some _ => false | None => true end.
Proof.
  intros H. unfold noReaders, positions. pose proof (R_rd _ _ _ H) as F.
  induction F as [|[r|] [p|] rs ps Hr F IH]; cbn; try contradiction; try reflexivity. exact IH.
Qed.

Lemma fold_min_le l x p : fold_right Z.min x l = p -> p <= x /\ forall y, In y l -> p <= y.
Proof.
  revert p; induction l as [|z l IH]; intros p H; cbn in H.
  - split; [lia|intros y []].
  - destruct (IH _ eq_refl) as [A1 A2]. split; [lia|]. intros y [<-|Hy]; [lia|]. specialize (A2 _ Hy). lia.
Qed.
Lemma fold_min_in l x : In (fold_right Z.min x l) (x :: l).
Proof.
  induction l as [|z l IH]; cbn; [left; reflexivity|].
  destruct (Z.min_spec z (fold_right Z.min x l)) as [[_ ->]|[_ ->]]; [right; left; reflexivity|].
  destruct IH as [IH|IH]; [left; exact IH|right; right; exact IH].
Qed.

Lemma slowest_spec l p : slowest l = Some p -> In p l /\ forall q, In q l -> p <= q.
Proof.
  destruct l as [|x l]; cbn; [discriminate|]. intros H; inversion H as [E]. split.
  - apply fold_min_in.
  - destruct (fold_min_le l x _ eq_refl) as [A1 A2]. intros q [<-|Hq]; [exact A1|apply A2, Hq].
Qed.
Lemma slowest_none l : slowest l = None -> l = [].
Proof. destruct l; [reflexivity|discriminate]. Qed.

Lemma total_nn a : 0 <= len (a_stream a) <= total a.
Proof. unfold total. pose proof (len_nn (a_stream a)). pose proof (len_nn (a_pend a)). lia. Qed.

Lemma remaining_rel c s a : Rel c s a -> remaining c s = free c a.
Proof.
  intros H. unfold remaining, free. rewrite (minReader_rel _ _ _ H), (R_res _ _ _ H).
  pose proof (R_cap _ _ _ H) as Hc. pose proof (total_nn a) as Ht. unfold lim in Hc.
  destruct (slowest (positions a)) as [p|] eqn:E.
  - apply slowest_spec in E. destruct E as [E1 _].
    pose proof (R_room _ _ _ H _ E1). pose proof (positions_range _ _ _ _ H E1).
    rewrite (wsub_id (total a) p) by lia. apply wsub_id. lia.
  - unfold wsub. rewrite Z.sub_0_r. rewrite Zminus_mod_idemp_r. reflexivity.
Qed.

(** *** Memory lemmas *)
Lemma memset_same (m : Z -> A) i v : memset m i v i = v.
Proof. unfold memset. rewrite Z.eqb_refl. reflexivity. Qed.
Lemma memset_other (m : Z -> A) i v j : j <> i -> memset m i v j = m j.
Proof. unfold memset. intros H. apply Z.eqb_neq in H. rewrite H. reflexivity. Qed.

Lemma copyn_spec c m src dst n : mmap c = false -> (src + Z.of_nat n <= dst \/ dst + Z.of_nat n <= src) ->
  forall j, copyn c m src dst n j = if (dst <=? j) && (j <? dst + Z.of_nat n) then m (src + (j - dst)) else m j.
Proof.
  intros Hl. revert m src dst. induction n as [|n IH]; intros m src dst Hd j.
  - cbn [copyn]. destruct ((dst <=? j) && (j <? dst + Z.of_nat 0)) eqn:E; [lia|reflexivity].
  - cbn [copyn]. rewrite IH by lia. unfold phys; rewrite Hl.
    destruct (Z.leb_spec (dst + 1) j); destruct (Z.ltb_spec j (dst + 1 + Z.of_nat n)); cbn [andb].
    + rewrite memset_other by lia. replace (dst <=? j) with true by lia. replace (j <? dst + Z.of_nat (S n)) with true by lia.
      cbn [andb]. f_equal. lia.
    + rewrite memset_other by lia. replace (j <? dst + Z.of_nat (S n)) with false by lia. rewrite andb_false_r. reflexivity.
    + destruct (Z.eq_dec j dst) as [->|Hj].
      * rewrite memset_same. replace (dst <=? dst) with true by lia. replace (dst <? dst + Z.of_nat (S n)) with true by lia.
        cbn [andb]. f_equal. lia.
      * rewrite memset_other by exact Hj. replace (dst <=? j) with false by lia. reflexivity.
    + lia.
Qed.

Lemma clearRange_other c m e i n j : (forall k, i <= k < i + Z.of_nat n -> phys c (k mod cap c) <> j) -> clearRange c m e i n j = m j.
Proof.
  revert m i. induction n as [|n IH]; intros m i H; [reflexivity|].
  cbn [clearRange]. rewrite IH by (intros; apply H; lia). rewrite calcIndex_mod. apply memset_other.
  intros ->. apply (H i); [lia|reflexivity].
Qed.

(** Physical cells of different residues differ; both images of a residue. *)
Lemma phys_ne c i j : 0 < cap c -> i mod cap c <> j mod cap c -> phys c i <> phys c j.
Proof. intros Hc H E. unfold phys in E. destruct (mmap c); congruence. Qed.

Lemma mod_add_cap x N : 0 < N -> (x mod N + N) mod N = x mod N.
Proof. intros. rewrite Z.add_mod, Z_mod_same_full, Z.add_0_r, !Zmod_mod by lia. reflexivity. Qed.
Lemma mod_idx_add x i N : 0 < N -> (x mod N + i) mod N = (x + i) mod N.
Proof. intros. rewrite Zplus_mod_idemp_l. reflexivity. Qed.

(** *** Simulation *)

(** Changing only the readers, moving positions forward. *)
Lemma Rel_setr c s a i r p : Rel c s a -> agetr a i <> None ->
  orel (cap c) (len (a_stream a)) (a_wm a) r p ->
  (forall p', p = Some p' -> exists p0, agetr a i = Some p0 /\ p_pos p0 <= p_pos p') ->
  Rel c (setr s i r) (asetr a i p).
Proof.
  intros H Hi Hr Hp.
  assert (Hpos : forall q, In q (positions (asetr a i p)) -> exists q0, In q0 (positions a) /\ q0 <= q).
  { intros q Hq. apply positions_upd in Hq. destruct Hq as [(p' & -> & ->)|Hq]; [|exists q; split; [exact Hq|lia]].
    destruct (Hp _ eq_refl) as (p0 & E & L). exists (p_pos p0). split; [eapply in_positions; exact E|exact L]. }
  destruct H. constructor; unfold setr, asetr, total in *; cbn [readers mem pub res wmark wr a_stream a_pend a_req a_inst a_fresh a_readers a_wm] in *; auto.
  - apply Forall2_upd; assumption.
  - intros q Hq. destruct (Hpos q Hq) as (q0 & Q0 & L). specialize (R_room0 _ Q0). lia.
  - intros q v Hq (q1 & Q1 & L1). apply (R_mem0 q v Hq). destruct (Hpos q1 Q1) as (q0 & Q0 & L). exists q0. split; [exact Q0|lia].
Qed.

(** Changing only the writer bookkeeping. *)
Lemma Rel_setw c s a w a' : Rel c s a ->
  a_stream a' = a_stream a -> a_pend a' = a_pend a -> a_readers a' = a_readers a -> a_wm a' = a_wm a ->
  w_req w = a_req a' -> w_inst w = a_inst a' -> w_len w = w_len (wr s) -> w_offset w = (if a_fresh a' then 0 else len (a_stream a)) ->
  (a_fresh a' = true -> a_pend a = []) ->
  (0 <= w_index w < cap c) -> (a_pend a <> [] -> w_index w = w_index (wr s) /\ w_sidx w = w_sidx (wr s)) ->
  (a_inst a' = 0%nat -> a_pend a = []) ->
  (forall q, a_req a' = Some q -> 0 <= q <= len (a_pend a)) ->
  Rel c (setw s w) a'.
Proof.
  intros H E1 E2 E3 E4 H1 H2 H3 H4 H5 H6 H7 H8 H9.
  destruct a' as [st pd rq inst fr rds wm]. cbn in *. subst st pd rds wm.
  destruct H. constructor; unfold setw, total, positions in *; cbn [readers mem pub res wmark wr a_stream a_pend a_req a_inst a_fresh a_readers a_wm] in *; auto.
  - congruence.
  - intros Hne. destruct (H7 Hne) as [-> ->]. apply R_pidx0, Hne.
  - intros i v Hi. assert (Hne : a_pend a <> []) by (intros E; rewrite E in Hi; destruct i; discriminate).
    destruct (H7 Hne) as [-> _]. apply R_pmem0, Hi.
Qed.

Lemma Rel_recycle c s a a' : Rel c s a -> arecycle c a = Some a' -> Rel c (reclaim c s) a'.
Proof.
  intros H. unfold arecycle, reclaim. destruct (clr c) as [e|] eqn:Ec; [|intros E; inversion E; subst; exact H].
  rewrite (noReaders_rel _ _ _ H), (minReader_rel _ _ _ H).
  destruct (slowest (positions a)) as [p|] eqn:Es; [|intros E; inversion E; subst; exact H].
  destruct (R_wm _ _ _ H) as [Hw [Hw1 Hw2]]. rewrite Hw.
  destruct (Z.leb_spec p (a_wm a)) as [L|L]; [intros E; inversion E; subst; exact H|].
  destruct (Z.leb_spec (total a) (a_wm a + cap c)) as [T|T]; [|discriminate].
  intros E; inversion E; subst a'; clear E.
  destruct (slowest_spec _ _ Es) as [Sin Smin]. pose proof (positions_range _ _ _ _ H Sin) as Hpr.
  pose proof (R_cap _ _ _ H) as Hc.
  assert (Keep : forall x, p <= x < total a -> forall k, a_wm a <= k < a_wm a + Z.of_nat (Z.to_nat (p - a_wm a)) -> k mod cap c <> x mod cap c).
  { intros x Hx k Hk E. apply mod_inj in E; lia. }
  pose proof H as H0. destruct H0.
  constructor; unfold total, positions in *; cbn [readers mem pub res wmark wr a_stream a_pend a_req a_inst a_fresh a_readers a_wm] in *; auto.
  - split; [reflexivity|]. lia.
  - assert (Smin' : forall q, In q (flat_map (fun o => match o with Some r => [p_pos r] | None => [] end) (a_readers a)) -> p <= q) by exact Smin.
    clear - R_rd0 Smin'. induction R_rd0 as [|[r|] [q|] rs ps Hr F IH]; constructor; cbn in *; try contradiction; auto.
    destruct Hr; constructor; auto. specialize (Smin' (p_pos q) (or_introl eq_refl)). lia.
  - intros q v Hq (q1 & Q1 & L1).
    assert (Hqt : p <= Z.of_nat q < total a).
    { assert (Hlt : (q < length (a_stream a))%nat) by (apply nth_error_Some; congruence).
      specialize (Smin _ Q1). unfold total, len. lia. }
    destruct (R_mem0 q v Hq (ex_intro _ q1 (conj Q1 L1))) as [M1 M2].
    rewrite !clearRange_other; auto.
    + intros k Hk. apply phys_ne; [lia|]. rewrite Zmod_mod, mod_add_cap by lia. apply Keep; assumption.
    + intros k Hk. apply phys_ne; [lia|]. rewrite !Zmod_mod. apply Keep; assumption.
  - intros i v Hi. rewrite clearRange_other; [apply R_pmem0, Hi|].
    assert (Hlt : (i < length (a_pend a))%nat) by (apply nth_error_Some; congruence).
    assert (Hne : a_pend a <> []) by (intros E; rewrite E in Hi; destruct i; discriminate).
    destruct (R_pidx0 Hne) as [-> _].
    intros k Hk. apply phys_ne; [lia|]. rewrite Zmod_mod, mod_idx_add by lia. apply Keep; [|exact Hk]. unfold total, len in *. lia.
Qed.

Lemma Rel_pressure c s a a' : Rel c s a -> apressure c a = Some a' -> Rel c (maybeReclaim c s) a'.
Proof.
  intros H. unfold apressure, maybeReclaim, needsReclaim. destruct (clr c); [|intros E; inversion E; subst; exact H].
  rewrite (remaining_rel _ _ _ H). destruct (free c a <? cap c / 4); [apply Rel_recycle, H|intros E; inversion E; subst; exact H].
Qed.

Lemma pressure_same c a a' : apressure c a = Some a' ->
  a_stream a' = a_stream a /\ a_pend a' = a_pend a /\ a_req a' = a_req a /\ a_inst a' = a_inst a /\ a_fresh a' = a_fresh a /\ a_readers a' = a_readers a.
Proof.
  unfold apressure, arecycle. destruct (clr c); [|intros E; inversion E; subst; auto 10].
  destruct (free c a <? cap c / 4); [|intros E; inversion E; subst; auto 10].
  destruct (slowest (positions a)); [|intros E; inversion E; subst; auto 10].
  destruct (_ <=? a_wm a); [intros E; inversion E; subst; auto 10|].
  destruct (_ <=? _); [|discriminate]. intros E; inversion E; subst; cbn; auto 10.
Qed.

Lemma maybeReclaim_wr c s : wr (maybeReclaim c s) = wr s.
Proof.
  unfold maybeReclaim, reclaim. destruct (needsReclaim c s); [|reflexivity]. destruct (clr c); [|reflexivity].
  destruct (noReaders (readers s)); [reflexivity|]. destruct (_ <=? wmark s); reflexivity.
Qed.

Lemma len_repeat {B} (x : B) n : 0 <= n -> len (repeat x (Z.to_nat n)) = n.
Proof. intros H. unfold len. rewrite repeat_length. lia. Qed.

Lemma free_room c s a n : Rel c s a -> a_pend a = [] -> n <= free c a -> forall p, In p (positions a) -> len (a_stream a) + n - p <= cap c.
Proof.
  intros H E Hf p Hp. unfold free in Hf. destruct (slowest (positions a)) as [q|] eqn:Es.
  - destruct (slowest_spec _ _ Es) as [_ Sm]. specialize (Sm _ Hp). unfold total in Hf. rewrite E in Hf. cbn in Hf. unfold len in *. cbn in Hf. lia.
  - apply slowest_none in Es. rewrite Es in Hp. destruct Hp.
Qed.

Lemma sim_reserve c s a n a' x : Rel c s a -> astep c a (Reserve n) = Some (a', x) ->
  exists s', step c s (Reserve n) = Some (s', x) /\ Rel c s' a'.
Proof.
  intros H. cbn [astep step]. unfold doReserve.
  destruct (Nat.eqb_spec (a_inst a) 0) as [Hi|Hi]; cbn [negb orb]; [|discriminate].
  destruct (Z.ltb_spec n 0) as [Hn|Hn]; cbn [orb]; [discriminate|].
  destruct (Z.ltb_spec (cap c) n) as [Hn2|Hn2]; [discriminate|].
  pose proof (R_dead _ _ _ H Hi) as Hpd. pose proof (R_len _ _ _ H) as Hl. rewrite Hpd in Hl. cbn in Hl.
  rewrite Hl. cbn [Z.eqb negb andb]. change (negb (0 =? 0)) with false. cbn [andb].
  assert (Hinst : w_inst (wr s) = 0%nat) by (rewrite (R_inst _ _ _ H); exact Hi). rewrite Hinst.
  destruct (Z.eqb_spec n 0) as [Hz|Hz].
  - intros E; inversion E; subst; clear E. eexists. split; [reflexivity|].
    eapply Rel_setw; try exact H; try reflexivity; cbn [a_stream a_pend a_req a_inst a_fresh a_readers a_wm aset w_req w_inst w_len w_offset w_index w_sidx]; auto.
    + apply H.
    + apply H.
    + intros; discriminate.
  - destruct (apressure c a) as [a1|] eqn:Ep; [|discriminate].
    destruct (pressure_same _ _ _ Ep) as (P1 & P2 & P3 & P4 & P5 & P6).
    set (w1 := {| w_req := None; w_index := w_index (wr s); w_offset := w_offset (wr s); w_sidx := w_sidx (wr s); w_len := 0; w_inst := 0%nat |}).
    (* the request field is overwritten before the recycling test; recycling does not look at it *)
    assert (Hcomm : maybeReclaim c (setw s w1) = setw (maybeReclaim c s) w1).
    { unfold maybeReclaim, needsReclaim, remaining, reclaim, setw; cbn [readers res wmark mem pub wr]. destruct (clr c); [|reflexivity].
      destruct (_ <? cap c / 4); [|reflexivity]. destruct (noReaders (readers s)); [reflexivity|]. destruct (_ <=? wmark s); reflexivity. }
    rewrite Hcomm. pose proof (Rel_pressure _ _ _ _ H Ep) as H1. set (s1 := maybeReclaim c s) in *.
    assert (Hw1 : wr s1 = wr s) by apply maybeReclaim_wr.
    assert (Hrem : remaining c (setw s1 w1) = free c a1) by (rewrite <- (remaining_rel _ _ _ H1); reflexivity).
    rewrite Hrem. destruct (Z.ltb_spec (free c a1) n) as [Hf|Hf].
    + intros E; inversion E; subst; clear E. eexists. split; [reflexivity|].
      change (setw (setw s1 w1)) with (setw s1).
      eapply Rel_setw; try exact H1; try reflexivity; cbn [a_stream a_pend a_req a_inst a_fresh a_readers a_wm aset w_req w_inst w_len w_offset w_index w_sidx]; auto.
      * rewrite P2; symmetry; exact Hpd.
      * rewrite Hw1, Hl; reflexivity.
      * rewrite P5, P1. apply H.
      * intros; congruence.
      * apply H.
      * rewrite P2. intros G; contradiction.
      * intros; discriminate.
      * intros; discriminate.
    + intros E; inversion E; subst a' x; clear E.
      eexists. split; [reflexivity|]. cbn [setw mem pub res readers wmark].
      assert (Hres : res s1 = len (a_stream a1)).
      { rewrite (R_res _ _ _ H1). unfold total. rewrite P2, Hpd. unfold len at 2. cbn. lia. }
      pose proof (free_room c s1 a1 n H1 (eq_trans P2 Hpd) Hf) as Hroom.
      pose proof (R_cap _ _ _ H1) as Hc.
      destruct H1. unfold total in *. rewrite P2, Hpd in *. unfold aset.
      constructor; unfold total, positions in *; cbn [readers mem pub res wmark wr a_stream a_pend a_req a_inst a_fresh a_readers a_wm w_req w_inst w_len w_offset w_index w_sidx] in *; auto.
      * rewrite len_repeat by lia. unfold len in Hres, R_res0 |- *. cbn in R_res0. lia.
      * rewrite len_repeat by lia; reflexivity.
      * lia.
      * discriminate.
      * rewrite calcIndex_mod. lia.
      * intros _. split; [|reflexivity]. rewrite calcIndex_mod.
        replace (res s1 + n + cap c - n) with (res s1 + 1 * cap c) by lia.
        rewrite Z_mod_plus_full, Hres. reflexivity.
      * discriminate.
      * intros; discriminate.
      * rewrite len_repeat; lia.
      * intros p Hp. rewrite len_repeat by lia. specialize (Hroom p Hp). lia.
      * intros i v Hi'. apply nth_error_In in Hi'. apply repeat_spec in Hi'. discriminate.
Qed.

Lemma Rel_write c s a i v : Rel c s a -> 0 <= i < len (a_pend a) -> a_inst a <> 0%nat ->
  inb c (w_sidx (wr s) + i) = true /\
  Rel c {| mem := memset (mem s) (phys c (w_sidx (wr s) + i)) v; pub := pub s; res := res s; readers := readers s; wmark := wmark s; wr := wr s |}
        (aset a (a_stream a) (upd (a_pend a) (Z.to_nat i) (Some v)) (a_req a) (a_inst a) (a_fresh a)).
Proof.
  intros H Hi Hinst.
  assert (Hne : a_pend a <> []) by (intros E; rewrite E in Hi; cbn in Hi; lia).
  destruct (R_pidx _ _ _ H Hne) as [I1 I2]. pose proof (R_cap _ _ _ H) as Hc. pose proof (R_idx _ _ _ H) as Hix.
  pose proof (R_pend _ _ _ H) as Hpl. rewrite I2.
  split; [unfold inb; apply andb_true_intro; split; [apply Z.leb_le|apply Z.ltb_lt]; lia|].
  assert (Hidx : (w_index (wr s) + i) mod cap c = (len (a_stream a) + i) mod cap c) by (rewrite I1; apply mod_idx_add; lia).
  destruct H. constructor; unfold aset, total, positions in *; cbn [readers mem pub res wmark wr a_stream a_pend a_req a_inst a_fresh a_readers a_wm] in *; rewrite ?len_upd; auto.
  - intros F. specialize (R_fresh0 F). contradiction.
  - intros Hd. contradiction.
  - intros q u Hq (p & Hp & L).
    destruct (R_mem0 q u Hq (ex_intro _ p (conj Hp L))) as [M1 M2].
    assert (Hlt : (q < length (a_stream a))%nat) by (apply nth_error_Some; congruence).
    specialize (R_room0 p Hp).
    assert (Hd : Z.of_nat q mod cap c <> (len (a_stream a) + i) mod cap c).
    { intros E. apply mod_inj in E; unfold len in *; lia. }
    rewrite !memset_other; auto.
    + apply phys_ne; [lia|]. rewrite mod_add_cap by lia. rewrite Hidx. exact Hd.
    + apply phys_ne; [lia|]. rewrite Zmod_mod, Hidx. exact Hd.
  - intros j u Hj. apply nth_upd_inv in Hj. destruct Hj as [[E Hu]|[E Hj]].
    + inversion Hu; subst u. replace (Z.of_nat j) with i by lia. apply memset_same.
    + assert (Hlt : (j < length (a_pend a))%nat) by (apply nth_error_Some; congruence).
      rewrite memset_other; [apply R_pmem0, Hj|].
      apply phys_ne; [lia|]. rewrite I1, !mod_idx_add by lia.
      intros E2. apply mod_inj in E2; unfold len in *; lia.
Qed.

Lemma written_nth (l : list (option A)) vs : written l = Some vs -> length vs = length l /\ forall i v, nth_error vs i = Some v -> nth_error l i = Some (Some v).
Proof.
  revert vs; induction l as [|[v|] l IH]; intros vs H; cbn in H; try discriminate.
  - inversion H; split; [reflexivity|]. intros [|i] v; discriminate.
  - destruct (written l) as [x|]; [|discriminate]. inversion H; subst. destruct (IH _ eq_refl) as [L F].
    split; [cbn; congruence|]. intros [|i] u Hu; cbn in *; [congruence|apply F, Hu].
Qed.

Lemma nth_firstn {B} (l : list B) k i v : nth_error (firstn k l) i = Some v -> nth_error l i = Some v /\ (i < k)%nat.
Proof.
  revert l i; induction k as [|k IH]; intros l i H; cbn in H; [destruct i; discriminate|].
  destruct l; [destruct i; discriminate|]. destruct i; cbn in *; [split; [exact H|lia]|].
  destruct (IH _ _ H). split; [assumption|lia].
Qed.

(** Release of the last writer span copy, publishing [k]. *)
Lemma Rel_release c s a k vs w0 : Rel c s a -> 0 <= k <= len (a_pend a) ->
  written (firstn (Z.to_nat k) (a_pend a)) = Some vs ->
  (a_fresh a = true -> len (a_stream a) = 0) ->
  w_index w0 = w_index (wr s) -> w_offset w0 = w_offset (wr s) ->
  Rel c {| mem := (if mmap c then mem s
                   else let nFirst := Z.min (wsub (cap c) (w_index w0)) k in
                        let nSecond := k - nFirst in
                        copyn c (copyn c (mem s) (w_index w0) (w_index w0 + cap c) (Z.to_nat nFirst)) (cap c) 0 (Z.to_nat nSecond));
           pub := w_offset w0 + k; res := w_offset w0 + k; readers := readers s; wmark := wmark s;
           wr := {| w_req := Some 0; w_index := w_index w0; w_offset := w_offset w0 + k; w_sidx := 0; w_len := 0; w_inst := 0%nat |} |}
        (aset a (a_stream a ++ vs) [] (Some 0) 0 (a_fresh a)).
Proof.
  intros H Hk Hwr Hfr Hwi Hwo. rewrite Hwi, Hwo. clear Hwi Hwo w0.
  destruct (written_nth _ _ Hwr) as [Hlv Hnv].
  assert (Hlvk : len vs = k).
  { unfold len in *. rewrite Hlv, firstn_length. lia. }
  pose proof (R_cap _ _ _ H) as Hc. pose proof (R_idx _ _ _ H) as Hix. pose proof (R_pend _ _ _ H) as Hpl.
  assert (Hoff : w_offset (wr s) = len (a_stream a)).
  { rewrite (R_off _ _ _ H). destruct (a_fresh a) eqn:Ef; [|reflexivity]. symmetry. apply Hfr; reflexivity. }
  assert (Hk0 : a_fresh a = true -> k = 0).
  { intros F. rewrite (R_fresh _ _ _ H F) in Hk. unfold len in Hk. cbn in Hk. lia. }
  set (w := wr s) in *.
  set (m' := if mmap c then mem s else _).
  (* cells whose residue is outside the published part are untouched; published cells get both images *)
  assert (Mkeep : forall j, 0 <= j < 2 * cap c -> (forall i, 0 <= i < k -> j mod cap c <> (w_index w + i) mod cap c) -> m' (phys c j) = mem s (phys c j)).
  { intros j Hj Hd. unfold m'. destruct (mmap c) eqn:Em; [reflexivity|]. cbv zeta.
    assert (Hws : wsub (cap c) (w_index w) = cap c - w_index w) by (unfold lim in Hc; apply wsub_id; lia). rewrite Hws.
    unfold phys; rewrite Em.
    rewrite copyn_spec by (try exact Em; lia). destruct ((0 <=? j) && (j <? 0 + Z.of_nat (Z.to_nat (k - Z.min (cap c - w_index w) k)))) eqn:E1.
    { exfalso. apply (Hd (j + (cap c - w_index w))); [lia|]. replace (w_index w + (j + (cap c - w_index w))) with (j + 1 * cap c) by lia.
      rewrite Z_mod_plus_full. reflexivity. }
    rewrite copyn_spec by (try exact Em; lia).
    destruct ((w_index w + cap c <=? j) && (j <? w_index w + cap c + Z.of_nat (Z.to_nat (Z.min (cap c - w_index w) k)))) eqn:E2; [|reflexivity].
    exfalso. apply (Hd (j - w_index w - cap c)); [lia|]. replace (w_index w + (j - w_index w - cap c)) with (j + (-1) * cap c) by lia.
    rewrite Z_mod_plus_full. reflexivity. }
  assert (Mpub : forall i, 0 <= i < k -> m' (phys c ((w_index w + i) mod cap c)) = mem s (phys c (w_index w + i)) /\
                                        m' (phys c ((w_index w + i) mod cap c + cap c)) = mem s (phys c (w_index w + i))).
  { intros i Hi. unfold m'. destruct (mmap c) eqn:Em.
    - unfold phys; rewrite Em. rewrite Zmod_mod, mod_add_cap by lia. split; reflexivity.
    - cbv zeta. assert (Hws : wsub (cap c) (w_index w) = cap c - w_index w) by (unfold lim in Hc; apply wsub_id; lia). rewrite Hws.
      unfold phys; rewrite Em.
      destruct (Z.lt_ge_cases (w_index w + i) (cap c)) as [L|L].
      + (* first part *)
        rewrite (Z.mod_small (w_index w + i)) by lia.
        assert (nf : i < Z.min (cap c - w_index w) k) by lia.
        split.
        * rewrite copyn_spec by (try exact Em; lia).
          replace ((0 <=? w_index w + i) && (w_index w + i <? 0 + Z.of_nat (Z.to_nat (k - Z.min (cap c - w_index w) k)))) with false by lia.
          rewrite copyn_spec by (try exact Em; lia).
          replace ((w_index w + cap c <=? w_index w + i) && _) with false by lia. reflexivity.
        * rewrite copyn_spec by (try exact Em; lia).
          replace ((0 <=? w_index w + i + cap c) && (w_index w + i + cap c <? 0 + Z.of_nat (Z.to_nat (k - Z.min (cap c - w_index w) k)))) with false by lia.
          rewrite copyn_spec by (try exact Em; lia).
          replace ((w_index w + cap c <=? w_index w + i + cap c) && (w_index w + i + cap c <? w_index w + cap c + Z.of_nat (Z.to_nat (Z.min (cap c - w_index w) k)))) with true by lia.
          f_equal. lia.
      + (* wrapped part *)
        assert (Em2 : (w_index w + i) mod cap c = w_index w + i - cap c).
        { replace (w_index w + i) with ((w_index w + i - cap c) + 1 * cap c) at 1 by lia. rewrite Z_mod_plus_full. apply Z.mod_small. lia. }
        rewrite Em2. split.
        * rewrite copyn_spec by (try exact Em; lia).
          replace ((0 <=? w_index w + i - cap c) && (w_index w + i - cap c <? 0 + Z.of_nat (Z.to_nat (k - Z.min (cap c - w_index w) k)))) with true by lia.
          rewrite copyn_spec by (try exact Em; lia).
          replace ((w_index w + cap c <=? cap c + (w_index w + i - cap c - 0)) && (cap c + (w_index w + i - cap c - 0) <? w_index w + cap c + Z.of_nat (Z.to_nat (Z.min (cap c - w_index w) k)))) with false by lia.
          f_equal. lia.
        * rewrite copyn_spec by (try exact Em; lia).
          replace ((0 <=? w_index w + i - cap c + cap c) && (w_index w + i - cap c + cap c <? 0 + Z.of_nat (Z.to_nat (k - Z.min (cap c - w_index w) k)))) with false by lia.
          rewrite copyn_spec by (try exact Em; lia).
          replace ((w_index w + cap c <=? w_index w + i - cap c + cap c) && _) with false by lia.
          f_equal. lia. }
  clearbody m'.
  destruct H. fold w in R_off0, R_idx0, R_pidx0, R_pmem0, R_req0, R_inst0, R_len0.
  constructor; unfold aset, total, positions in *; cbn [readers mem pub res wmark wr a_stream a_pend a_req a_inst a_fresh a_readers a_wm w_req w_inst w_len w_offset w_index w_sidx] in *; rewrite ?len_app; auto.
  - rewrite Hoff, Hlvk. reflexivity.
  - unfold len at 3. cbn. lia.
  - pose proof (len_nn vs). lia.
  - destruct (a_fresh a) eqn:Ef; [rewrite R_off0, (Hk0 eq_refl); reflexivity|lia].
  - intros Hne; contradiction.
  - intros q E; inversion E; subst. unfold len; cbn. lia.
  - unfold len; cbn; lia.
  - eapply Forall2_mono; [|exact R_rd0]. intros [r|] [p|] Hr; cbn in *; try contradiction; auto.
    pose proof (len_nn vs) as Hnn. destruct Hr; constructor; auto.
    + lia.
    + destruct (p_first p); [lia|exact rr_f0].
    + intros n Hn. specialize (rr_q0 n Hn). lia.
  - intros p Hp. specialize (R_room0 p Hp). unfold len at 3; cbn. lia.
  - intros q v Hq (p & Hp & L).
    specialize (R_room0 p Hp).
    destruct (Nat.lt_ge_cases q (length (a_stream a))) as [Hlt|Hge].
    + rewrite nth_error_app1 in Hq by exact Hlt.
      destruct (R_mem0 q v Hq (ex_intro _ p (conj Hp L))) as [M1 M2].
      assert (Hd : forall i, 0 <= i < k -> Z.of_nat q mod cap c <> (w_index w + i) mod cap c).
      { intros i Hi E. assert (Hne : a_pend a <> []) by (intros E2; rewrite E2 in Hk; unfold len in Hk; cbn in Hk; lia).
        destruct (R_pidx0 Hne) as [I1 _]. rewrite I1, mod_idx_add in E by lia.
        apply mod_inj in E; unfold len in *; lia. }
      rewrite !Mkeep; auto.
      * pose proof (Z.mod_pos_bound (Z.of_nat q) (cap c)); lia.
      * intros i Hi. rewrite mod_add_cap by lia. apply Hd, Hi.
      * pose proof (Z.mod_pos_bound (Z.of_nat q) (cap c)); lia.
      * intros i Hi. rewrite Zmod_mod. apply Hd, Hi.
    + rewrite nth_error_app2 in Hq by exact Hge.
      set (i := (q - length (a_stream a))%nat) in *.
      pose proof (Hnv i v Hq) as Hn. apply nth_firstn in Hn. destruct Hn as [Hn Hik].
      assert (Hne : a_pend a <> []) by (intros E; rewrite E in Hn; destruct i; discriminate).
      destruct (R_pidx0 Hne) as [I1 _].
      assert (Eq : Z.of_nat q mod cap c = (w_index w + Z.of_nat i) mod cap c).
      { rewrite I1, mod_idx_add by lia. f_equal. unfold len, i. lia. }
      rewrite Eq. destruct (Mpub (Z.of_nat i)) as [M1 M2]; [lia|]. rewrite M1, M2.
      split; apply R_pmem0, Hn.
  - intros [|i] v Hi; discriminate.
Qed.

Lemma sim_release c s a p a' x : Rel c s a -> astep c a (Release p) = Some (a', x) ->
  exists s', step c s (Release p) = Some (s', x) /\ Rel c s' a'.
Proof.
  intros H. cbn [astep step]. unfold doRelease. rewrite (R_inst _ _ _ H).
  destruct (a_inst a) as [|[|k]] eqn:Ei; [discriminate| |].
  - destruct (a_fresh a && negb (len (a_stream a) =? 0)) eqn:Ef; [discriminate|].
    assert (Hfr : a_fresh a = true -> len (a_stream a) = 0) by (intros F; rewrite F in Ef; cbn [andb] in Ef; lia).
    cbn [w_req w_len]. rewrite (R_req _ _ _ H).
    set (w1 := {| w_req := a_req a; w_index := w_index (wr s); w_offset := w_offset (wr s); w_sidx := w_sidx (wr s); w_len := w_len (wr s); w_inst := 0%nat |}).
    pose proof (len_nn (a_pend a)) as Hpn. pose proof (R_cap _ _ _ H) as Hc. pose proof (R_pend _ _ _ H) as Hpl.
    destruct (a_req a) as [q|] eqn:Eq.
    + pose proof (R_reqok _ _ _ H q Eq) as Hq.
      destruct (written (firstn (Z.to_nat q) (a_pend a))) as [vs|] eqn:Ew; [|destruct p; discriminate].
      intros E. assert (E' : Some (aset a (a_stream a ++ vs) [] (Some 0) 0 (a_fresh a), OUnit) = Some (a', x)) by (destruct p; exact E).
      inversion E'; subst. eexists. split; [reflexivity|].
      apply (Rel_release c s a q vs w1); auto.
    + destruct p; [discriminate| |].
      * destruct (written (firstn (Z.to_nat (len (a_pend a))) (a_pend a))) as [vs|] eqn:Ew; [|discriminate].
        intros E; inversion E; subst.
        unfold doPublish. cbn [w_req w_len w1]. rewrite (R_len _ _ _ H).
        assert (Hws : wsub (len (a_pend a)) 0 = len (a_pend a)) by (rewrite wsub_id; unfold lim in Hc; lia).
        rewrite Hws. replace ((len (a_pend a) <? 0) || (len (a_pend a) <? len (a_pend a))) with false by lia.
        cbn [w_req]. eexists. split; [reflexivity|].
        apply (Rel_release c s a (0 + len (a_pend a)) vs w1); auto; lia.
      * destruct (written (firstn (Z.to_nat 0) (a_pend a))) as [vs|] eqn:Ew; [|discriminate].
        intros E; inversion E; subst.
        unfold doPublish. cbn [w_req w_len w1]. rewrite (R_len _ _ _ H).
        assert (Hws : wsub (len (a_pend a)) 0 = len (a_pend a)) by (rewrite wsub_id; unfold lim in Hc; lia).
        rewrite Hws. replace ((0 <? 0) || (len (a_pend a) <? 0)) with false by lia.
        cbn [w_req]. eexists. split; [reflexivity|].
        apply (Rel_release c s a (0 + 0) vs w1); auto; lia.
  - intros E; inversion E; subst. eexists. split; [reflexivity|].
    eapply Rel_setw; try exact H; try reflexivity; cbn [a_stream a_pend a_req a_inst a_fresh a_readers a_wm aset w_req w_inst w_len w_offset w_index w_sidx]; try apply H; auto.
    intros; discriminate.
Qed.

Lemma ravail_rel c s a r p : Rel c s a -> rrel (cap c) (len (a_stream a)) (a_wm a) r p -> In (p_pos p) (positions a) -> ravail s r = aavail a p /\ 0 <= aavail a p <= cap c.
Proof.
  intros H Hr Hin. unfold ravail, aavail. rewrite (rr_cached _ _ _ _ _ Hr), (R_pub _ _ _ H).
  pose proof (R_room _ _ _ H _ Hin). pose proof (total_nn a). pose proof (rr_pos _ _ _ _ _ Hr). pose proof (R_cap _ _ _ H) as Hc. unfold lim in Hc.
  rewrite wsub_id by lia. lia.
Qed.

Lemma nth_slice (l : list A) p n i : (i < n)%nat -> nth_error (firstn n (skipn p l)) i = nth_error l (p + i).
Proof.
  intros H. revert p l i H. induction n as [|n IH]; intros p l i H; [lia|].
  revert p. induction l as [|y l IHl]; intros p.
  - rewrite skipn_nil. destruct i; destruct p; reflexivity.
  - destruct p as [|p].
    + destruct i; [reflexivity|]. cbn. apply (IH 0%nat l i). lia.
    + cbn [skipn]. rewrite IHl. reflexivity.
Qed.

Lemma list_eq_nth {B} (l1 l2 : list B) : length l1 = length l2 -> (forall i x, nth_error l2 i = Some x -> nth_error l1 i = Some x) -> l1 = l2.
Proof.
  revert l2; induction l1 as [|x l1 IH]; intros [|y l2] L H; try discriminate; [reflexivity|].
  f_equal.
  - specialize (H 0%nat y eq_refl). cbn in H. congruence.
  - apply IH; [cbn in L; lia|]. intros i z Hz. exact (H (S i) z Hz).
Qed.

Lemma read_rel c s a r p l : Rel c s a -> rrel (cap c) (len (a_stream a)) (a_wm a) r p -> In (p_pos p) (positions a) ->
  0 <= l -> p_pos p + l <= len (a_stream a) ->
  readSpan c (mem s) (p_pos p mod cap c) l = Some (slice (a_stream a) (p_pos p) l).
Proof.
  intros H Hr Hin Hl Hle. pose proof (R_cap _ _ _ H) as Hc. pose proof (R_room _ _ _ H _ Hin) as Hrm. pose proof (total_nn a) as Ht.
  pose proof (rr_pos _ _ _ _ _ Hr) as Hp. destruct (R_wm _ _ _ H) as [_ Hwm].
  pose proof (Z.mod_pos_bound (p_pos p) (cap c) ltac:(lia)) as Hm.
  unfold readSpan.
  assert (Hb : (l =? 0) || (inb c (p_pos p mod cap c) && inb c (p_pos p mod cap c + l - 1)) = true) by (unfold inb; lia).
  rewrite Hb. f_equal. unfold slice.
  apply list_eq_nth.
  - rewrite map_length, seq_length, firstn_length, skipn_length. unfold len in *. lia.
  - intros i x Hx.
    assert (Hil : (i < Z.to_nat l)%nat).
    { assert (Hs : nth_error (firstn (Z.to_nat l) (skipn (Z.to_nat (p_pos p)) (a_stream a))) i <> None) by congruence.
      apply nth_error_Some in Hs. rewrite firstn_length in Hs. lia. }
    rewrite nth_slice in Hx by exact Hil.
    rewrite nth_error_map.
    assert (Es : nth_error (seq 0 (Z.to_nat l)) i = Some i).
    { rewrite (nth_error_nth' _ 0%nat) by (rewrite seq_length; exact Hil). rewrite seq_nth by exact Hil. reflexivity. }
    rewrite Es. cbn [option_map]. f_equal.
    destruct (R_mem _ _ _ H _ _ Hx) as [M1 M2]; [exists (p_pos p); split; [exact Hin|lia]|].
    assert (Eq : Z.of_nat (Z.to_nat (p_pos p) + i) mod cap c = (p_pos p mod cap c + Z.of_nat i) mod cap c).
    { rewrite mod_idx_add by lia. f_equal. lia. }
    rewrite Eq in M1, M2.
    destruct (Z.lt_ge_cases (p_pos p mod cap c + Z.of_nat i) (cap c)) as [L|L].
    + rewrite Z.mod_small in M1 by lia. exact M1.
    + replace ((p_pos p mod cap c + Z.of_nat i) mod cap c + cap c) with (p_pos p mod cap c + Z.of_nat i) in M2; [exact M2|].
      assert (E3 : (p_pos p mod cap c + Z.of_nat i) mod cap c = p_pos p mod cap c + Z.of_nat i - cap c).
      { clear - Hm L Hc Hil Hrm Ht Hle. remember (p_pos p mod cap c) as b eqn:Hb. clear Hb.
        replace (b + Z.of_nat i) with ((b + Z.of_nat i - cap c) + 1 * cap c) at 1 by lia.
        rewrite Z_mod_plus_full. apply Z.mod_small. lia. }
      lia.
Qed.

Lemma remove_map {B C} (f : B -> C) l k : remove_nth (map f l) k = map f (remove_nth l k).
Proof. revert k; induction l as [|x l IH]; intros [|k]; cbn; try reflexivity. rewrite IH. reflexivity. Qed.
Lemma in_remove {B} (l : list B) k x : In x (remove_nth l k) -> In x l.
Proof. revert k; induction l as [|y l IH]; intros [|k] H; cbn in *; auto. destruct H as [H|H]; [auto|right; eapply IH; exact H]. Qed.

Lemma rrel_spans_first N pv wm r p : rrel N pv wm r p -> p_spans p <> [] -> exists f, p_first p = Some f /\ 0 <= f /\ p_pos p + f <= pv.
Proof.
  intros H Hs. pose proof (rr_f _ _ _ _ _ H) as F. destruct (p_first p) as [f|]; [eauto|]. destruct F; contradiction.
Qed.

Theorem simulation c s a o a' x : Rel c s a -> astep c a o = Some (a', x) -> exists s', step c s o = Some (s', x) /\ Rel c s' a'.
Proof.
  intros H Hs. destruct o as [|n|i v| |k|p| |i|i n|i k|i k|i n|i k p| | |i].
  - (* NewWriter *)
    cbn [astep step] in *. rewrite (R_inst _ _ _ H). destruct (a_inst a) eqn:Ei; cbn in Hs; [|discriminate].
    inversion Hs; subst; clear Hs. eexists. split; [reflexivity|].
    pose proof (R_dead _ _ _ H Ei) as Hd. pose proof (R_cap _ _ _ H).
    eapply Rel_setw; try exact H; try reflexivity; cbn [a_stream a_pend a_req a_inst a_fresh a_readers a_wm aset newWriter w_req w_inst w_len w_offset w_index w_sidx]; auto; try lia.
    + rewrite (R_len _ _ _ H), Hd. reflexivity.
    + intros Hne; contradiction.
    + intros q E; inversion E; subst. rewrite Hd. unfold len; cbn. lia.
  - eapply sim_reserve; eassumption.
  - (* WriteSpan *)
    cbn [astep step] in *. destruct ((0 <=? i) && (i <? len (a_pend a)) && negb (Nat.eqb (a_inst a) 0)) eqn:E; [|discriminate].
    assert (Hi : 0 <= i < len (a_pend a)) by lia. assert (Hinst : a_inst a <> 0%nat) by lia.
    inversion Hs; subst; clear Hs. destruct (Rel_write c s a i v H Hi Hinst) as [Hb Hr].
    eexists. split; [|exact Hr].
    rewrite Hb, (R_len _ _ _ H), (R_inst _ _ _ H).
    replace ((0 <=? i) && (i <? len (a_pend a)) && (0 <? Z.of_nat (a_inst a)) && true) with true by lia. reflexivity.
  - (* CopySpan *)
    cbn [astep step] in *. rewrite (R_inst _ _ _ H). destruct (a_inst a) eqn:Ei; cbn in Hs; [discriminate|].
    inversion Hs; subst; clear Hs. eexists. split; [reflexivity|].
    eapply Rel_setw; try exact H; try reflexivity; cbn [a_stream a_pend a_req a_inst a_fresh a_readers a_wm aset w_req w_inst w_len w_offset w_index w_sidx]; try apply H; auto.
    intros; discriminate.
  - (* Publish *)
    cbn [astep step] in *. rewrite (R_inst _ _ _ H).
    destruct (a_inst a) as [|m] eqn:Ei; cbn [Nat.eqb orb] in Hs; [discriminate|].
    unfold doPublish. rewrite (R_req _ _ _ H), (R_len _ _ _ H).
    set (already := match a_req a with Some q => q | None => 0 end) in *.
    change (match a_req a with None => 0 | Some q => q end) with already.
    assert (Hal : 0 <= already <= len (a_pend a)).
    { unfold already. destruct (a_req a) as [q|] eqn:Eq; [apply (R_reqok _ _ _ H q Eq)|pose proof (len_nn (a_pend a)); lia]. }
    pose proof (R_cap _ _ _ H) as Hc. pose proof (R_pend _ _ _ H) as Hpl. unfold lim in Hc.
    rewrite wsub_id by lia. destruct ((k <? 0) || (len (a_pend a) - already <? k)) eqn:E; [discriminate|].
    inversion Hs; subst; clear Hs. eexists. split; [reflexivity|].
    eapply Rel_setw; try exact H; try reflexivity; cbn [a_stream a_pend a_req a_inst a_fresh a_readers a_wm aset w_req w_inst w_len w_offset w_index w_sidx]; try apply H; auto.
    all: try (rewrite (R_len _ _ _ H); reflexivity); try (intros; discriminate).
    all: try (intros q Eq; inversion Eq; subst; lia).
    rewrite (R_inst _ _ _ H); exact Ei.
  - eapply sim_release; eassumption.
  - (* NewReader *)
    cbn [astep step] in *. inversion Hs; subst; clear Hs.
    assert (El : length (readers s) = length (a_readers a)) by (eapply Forall2_len; apply H).
    rewrite El. eexists. split; [reflexivity|].
    pose proof (total_nn a) as Ht. pose proof (R_cap _ _ _ H) as Hc.
    assert (Hpos : forall q, In q (positions {| a_stream := a_stream a; a_pend := a_pend a; a_req := a_req a; a_inst := a_inst a; a_fresh := a_fresh a;
               a_readers := a_readers a ++ [Some {| p_pos := len (a_stream a); p_first := None; p_req := None; p_done := 0; p_spans := [] |}];
               a_wm := a_wm a |}) -> In q (positions a) \/ q = len (a_stream a)).
    { intros q Hq. unfold positions in *. cbn [a_readers] in Hq. rewrite flat_map_app in Hq. apply in_app_iff in Hq.
      destruct Hq as [Hq|Hq]; [left; exact Hq|right]. cbn in Hq. destruct Hq as [<-|[]]; reflexivity. }
    destruct H. constructor; unfold total in *; cbn [readers mem pub res wmark wr a_stream a_pend a_req a_inst a_fresh a_readers a_wm] in *; auto.
    + apply Forall2_app; [exact R_rd0|]. constructor; [|constructor].
      constructor; cbn; auto; try lia; try (intros; discriminate); intros l [].
    + intros q Hq. destruct (Hpos q Hq) as [Hq'| ->]; [apply R_room0, Hq'|lia].
    + intros q v Hq (q1 & Q1 & L1). destruct (Hpos q1 Q1) as [Hq'| ->]; [apply (R_mem0 q v Hq); eauto|].
      exfalso. assert (q < length (a_stream a))%nat by (apply nth_error_Some; congruence). unfold len in L1. lia.
  - (* DropReader *)
    cbn [astep step] in *. destruct (agetr a i) as [p|] eqn:Eg; [|discriminate].
    destruct (agetr_rel _ _ _ _ _ H Eg) as (r & Er & Hr). rewrite Er, (rr_spans _ _ _ _ _ Hr).
    destruct (p_spans p); [|discriminate]. inversion Hs; subst; clear Hs. cbn [map]. eexists. split; [reflexivity|].
    apply Rel_setr; auto; [congruence|exact I|]. intros; discriminate.
  - (* Get *)
    cbn [astep step] in *. destruct (agetr a i) as [p|] eqn:Eg; [|discriminate].
    destruct (agetr_rel _ _ _ _ _ H Eg) as (r & Er & Hr). rewrite Er. unfold doGet. rewrite (rr_req _ _ _ _ _ Hr).
    destruct (p_req p) eqn:Eq; [discriminate|].
    destruct (ravail_rel c s a r p H Hr (in_positions _ _ _ Eg)) as [Hav Hav2]. rewrite Hav.
    set (want := match n with Some k => k | None => aavail a p end) in *.
    destruct ((want <? 0) || (aavail a p <? want)) eqn:Ew; [discriminate|].
    assert (Eo : match n with None => Some (aavail a p) | Some k => if (k <? 0) || (aavail a p <? k) then None else Some k end = Some want).
    { unfold want in *. destruct n; [rewrite Ew|]; reflexivity. }
    rewrite Eo. rewrite (rr_first _ _ _ _ _ Hr), (rr_cached _ _ _ _ _ Hr), calcIndex_mod.
    unfold aavail in *.
    destruct (p_first p) as [f|] eqn:Ef; inversion Hs; subst; clear Hs; (eexists; split; [reflexivity|]).
    + apply Rel_setr; auto; [congruence| |intros p' E; inversion E; subst; exists p; split; [exact Eg|cbn; lia]].
      pose proof Hr as Hr0. destruct Hr0. rewrite Ef in *. constructor; cbn; auto.
      * rewrite rr_spans0, map_app. reflexivity.
      * intros l Hl. apply in_app_iff in Hl. destruct Hl as [Hl|[<-|[]]]; [apply rr_l0, Hl|]. exists f. split; [reflexivity|lia].
      * intros m Em; discriminate.
    + apply Rel_setr; auto; [congruence| |intros p' E; inversion E; subst; exists p; split; [exact Eg|cbn; lia]].
      pose proof Hr as Hr0. destruct Hr0. rewrite Ef in *. destruct rr_f0 as [Hsp _]. constructor; cbn; auto; try lia.
      * rewrite rr_spans0, map_app. reflexivity.
      * intros l Hl. rewrite Hsp in Hl. cbn in Hl. destruct Hl as [<-|[]]. exists want. split; [reflexivity|lia].
      * intros m Em; discriminate.
  - (* CopyRSpan *)
    cbn [astep step] in *. destruct (agetr a i) as [p|] eqn:Eg; [|discriminate].
    destruct (agetr_rel _ _ _ _ _ H Eg) as (r & Er & Hr). rewrite Er.
    rewrite (rr_spans _ _ _ _ _ Hr), nth_error_map. destruct (nth_error (p_spans p) k) as [l|] eqn:En; [|discriminate].
    inversion Hs; subst; clear Hs. cbn [option_map]. eexists. split; [reflexivity|].
    apply Rel_setr; auto; [congruence| |intros p' E; inversion E; subst; exists p; split; [exact Eg|cbn; lia]].
    pose proof Hr as Hr0. destruct Hr0. constructor; cbn; auto.
    * rewrite map_app. reflexivity.
    * destruct (p_first p); [exact rr_f0|]. destruct rr_f0 as [E _]. rewrite E in En. destruct k; discriminate.
    * intros l' Hl. apply in_app_iff in Hl. destruct Hl as [Hl|[<-|[]]]; [apply rr_l0, Hl|]. apply rr_l0. eapply nth_error_In; exact En.
  - (* ReadRSpan *)
    cbn [astep step] in *. destruct (agetr a i) as [p|] eqn:Eg; [|discriminate].
    destruct (agetr_rel _ _ _ _ _ H Eg) as (r & Er & Hr). rewrite Er.
    rewrite (rr_spans _ _ _ _ _ Hr), nth_error_map. destruct (nth_error (p_spans p) k) as [l|] eqn:En; [|discriminate].
    inversion Hs; subst; clear Hs. cbn [option_map].
    destruct (rr_l _ _ _ _ _ Hr l (nth_error_In _ _ En)) as (f & Ef & Hlf).
    pose proof (rr_f _ _ _ _ _ Hr) as F. rewrite Ef in F.
    rewrite (read_rel c s a' r p l H Hr (in_positions _ _ _ Eg)) by lia. eexists. split; [reflexivity|exact H].
  - (* TryConsume *)
    cbn [astep step] in *. destruct (agetr a i) as [p|] eqn:Eg; [|discriminate].
    destruct (agetr_rel _ _ _ _ _ H Eg) as (r & Er & Hr). rewrite Er.
    rewrite (rr_spans _ _ _ _ _ Hr). destruct (p_spans p) as [|l0 ls] eqn:Esp; [discriminate|]. cbn [map].
    unfold doTryConsume. destruct (n <? 0) eqn:En; [discriminate|]. rewrite (rr_req _ _ _ _ _ Hr).
    destruct (p_req p) eqn:Eq; [inversion Hs; subst; eexists; split; [reflexivity|exact H]|].
    destruct (ravail_rel c s a r p H Hr (in_positions _ _ _ Eg)) as [Hav Hav2]. rewrite Hav, (rr_first _ _ _ _ _ Hr).
    destruct (rrel_spans_first _ _ _ _ _ Hr) as (f & Ef & Hf1 & Hf2); [rewrite Esp; discriminate|]. rewrite Ef.
    destruct (Z.ltb_spec (aavail a p) n) as [L|L].
    + inversion Hs; subst; clear Hs. unfold aavail in *. replace (f <? n) with true by lia. cbn [andb]. eexists. split; [reflexivity|exact H].
    + inversion Hs; subst; clear Hs. rewrite andb_false_r. eexists. split; [reflexivity|].
      apply Rel_setr; auto; [congruence| |intros p' E; inversion E; subst; exists p; split; [exact Eg|cbn; lia]].
      unfold aavail in *. pose proof Hr as Hr0. destruct Hr0. rewrite Esp, Ef in *. constructor; cbn; auto.
      * intros m Em. inversion Em; subst. lia.
  - (* ReleaseR *)
    cbn [astep step] in *. destruct (agetr a i) as [pr|] eqn:Eg; [|discriminate].
    destruct (agetr_rel _ _ _ _ _ H Eg) as (r & Er & Hr). rewrite Er. unfold doReleaseR.
    rewrite (rr_spans _ _ _ _ _ Hr), nth_error_map, remove_map.
    destruct (nth_error (p_spans pr) k) as [l|] eqn:En; [|discriminate]. cbn [option_map].
    assert (Hne : p_spans pr <> []) by (intros E; rewrite E in En; destruct k; discriminate).
    destruct (rrel_spans_first _ _ _ _ _ Hr Hne) as (f & Ef & Hf1 & Hf2).
    destruct (ravail_rel c s a r pr H Hr (in_positions _ _ _ Eg)) as [Hav Hav2].
    destruct (remove_nth (p_spans pr) k) as [|x1 l1] eqn:Erm; cbn [map].
    + cbn [r_req r_first]. rewrite (rr_req _ _ _ _ _ Hr), (rr_first _ _ _ _ _ Hr), Ef in *.
      pose proof Hr as Hr0. destruct Hr0.
      assert (Fin : forall n d, 0 <= n -> p_pos pr + n <= len (a_stream a) ->
        Rel c (setr s i (Some {| r_seq := r_cached r + n; r_cached := r_cached r + n; r_first := None; r_req := None; r_consumed := d; r_spans := [] |}))
              (asetr a i (Some {| p_pos := p_pos pr + n; p_first := None; p_req := None; p_done := d; p_spans := [] |}))).
      { intros n d Hn1 Hn2. apply Rel_setr; auto; [congruence| |intros p' E; inversion E; subst; exists pr; split; [exact Eg|cbn; lia]].
        constructor; cbn; auto; try lia; try (intros; discriminate); intros l2 []. }
      assert (Keep : forall d, r_consumed r = d ->
        Rel c (setr s i (Some {| r_seq := r_seq r; r_cached := r_cached r; r_first := None; r_req := None; r_consumed := r_consumed r; r_spans := [] |}))
              (asetr a i (Some {| p_pos := p_pos pr + 0; p_first := None; p_req := None; p_done := d; p_spans := [] |}))).
      { intros d Hd. apply Rel_setr; auto; [congruence| |intros p' E; inversion E; subst; exists pr; split; [exact Eg|cbn; lia]].
        constructor; cbn; auto; try lia; try (intros; discriminate); intros l2 []. }
      destruct (p_req pr) as [n|] eqn:Eq.
      * destruct (rr_q0 n eq_refl) as [Q1 Q2].
        unfold performConsume; cbn [andb r_cached r_spans r_seq r_consumed].
        assert (E' : Some (asetr a i (Some {| p_pos := p_pos pr + n; p_first := None; p_req := None; p_done := n; p_spans := [] |}), OUnit) = Some (a', x)) by (destruct p; exact Hs).
        inversion E'; subst. eexists. split; [reflexivity|]. apply Fin; assumption.
      * destruct p; [discriminate| |].
        -- unfold performConsume; cbn [andb r_cached r_spans r_seq r_consumed].
           assert (Hav' : ravail s {| r_seq := r_seq r; r_cached := r_cached r; r_first := r_first r; r_req := r_req r; r_consumed := r_consumed r; r_spans := [] |} = aavail a pr) by exact Hav.
           unfold ravail in *. cbn [r_cached] in *. rewrite Hav. unfold aavail in *.
           destruct (Z.eqb_spec f 0) as [Hz|Hz].
           ++ inversion Hs; subst. eexists. split; [reflexivity|]. apply Keep. assumption.
           ++ replace (len (a_stream a) - p_pos pr <? f) with false by lia.
              inversion Hs; subst. eexists. split; [reflexivity|]. apply Fin; lia.
        -- unfold performConsume; cbn [andb Z.eqb r_cached r_spans r_seq r_consumed].
           inversion Hs; subst. eexists. split; [reflexivity|]. apply Keep. assumption.
    + inversion Hs; subst; clear Hs. eexists. split; [reflexivity|].
      apply Rel_setr; auto; [congruence| |intros p' E; inversion E; subst; exists pr; split; [exact Eg|cbn; lia]].
      pose proof Hr as Hr0. destruct Hr0. rewrite Ef in *. constructor; cbn; auto.
      intros l' Hl. apply rr_l0. apply (in_remove _ k). rewrite Erm. exact Hl.
  - (* HouseKeep *)
    cbn [astep step] in *. destruct (arecycle c a) as [a1|] eqn:Er; [|discriminate]. inversion Hs; subst.
    eexists. split; [reflexivity|]. eapply Rel_recycle; eassumption.
  - (* QWriter *)
    cbn [astep step] in *. inversion Hs; subst. rewrite (R_pub _ _ _ H), (remaining_rel _ _ _ H). eexists. split; [reflexivity|exact H].
  - (* QReader *)
    cbn [astep step] in *. destruct (agetr a i) as [p|] eqn:Eg; [|discriminate]. inversion Hs; subst.
    destruct (agetr_rel _ _ _ _ _ H Eg) as (r & Er & Hr). rewrite Er.
    destruct (ravail_rel c s a' r p H Hr (in_positions _ _ _ Eg)) as [Hav _].
    rewrite Hav, (rr_cached _ _ _ _ _ Hr), (rr_done _ _ _ _ _ Hr). eexists. split; [reflexivity|exact H].
Qed.

Lemma Rel_init c m : 0 < cap c <= lim -> Rel c (init m) ainit.
Proof.
  intros Hc. constructor; cbn; auto; unfold len; cbn; try lia; try (intros; discriminate); try (intros; contradiction).
  all: try (intros [|q] v; discriminate).
  all: try (intros q E; inversion E; subst; lia).
Qed.

Lemma sim_run c ops : forall s a a' xs, Rel c s a -> arun c a ops = Some (a', xs) -> exists s', run c s ops = Some (s', xs) /\ Rel c s' a'.
Proof.
  induction ops as [|o ops IH]; intros s a a' xs H E; cbn [arun run] in *.
  - inversion E; subst. eauto.
  - destruct (astep c a o) as [[a1 x]|] eqn:E1; [|discriminate].
    destruct (arun c a1 ops) as [[a2 ys]|] eqn:E2; [|discriminate]. inversion E; subst.
    destruct (simulation _ _ _ _ _ _ H E1) as (s1 & S1 & H1). rewrite S1.
    destruct (IH _ _ _ _ H1 E2) as (s2 & S2 & H2). rewrite S2. eauto.
Qed.

Theorem refinement c m ops a' xs : 0 < cap c <= lim -> arun c ainit ops = Some (a', xs) ->
  exists s', run c (init m) ops = Some (s', xs).
Proof. intros Hc E. destruct (sim_run c ops (init m) ainit a' xs (Rel_init c m Hc) E) as (s' & S & _). eauto. Qed.

End Proofs.
