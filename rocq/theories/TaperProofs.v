(* Proofs about the envelope. *)

From Coq Require Import ZArith Bool Lia List.
From Verif Require Import TaperModel TaperSpec.
Import ListNotations.

Local Open Scope nat_scope.

Definition okCfg (c : cfg) : Prop := length (fall c) = length (rise c).
(* what every state reached satisfies *)
Definition wf (c : cfg) (s : ts) : Prop :=
  match ph s with
  | Off => tgt s = false
  | On => tgt s = true
  | _ => pos s <= len c /\ 0 < len c
  end.
(* the next gain does not depend on how it is asked for *)
Definition good (c : cfg) (s : ts) : Prop :=
  match ph s with Up => pos s < len c \/ tgt s = true | Down => pos s < len c \/ tgt s = false | _ => True end.

Lemma mirrored_ok : forall c, mirrored c -> okCfg c.
Proof. intros c H; unfold okCfg. rewrite H. apply rev_length. Qed.

Lemma reset_wf : forall c, wf c reset. Proof. reflexivity. Qed.

Lemma transition_wf : forall c s, ph s = Up \/ ph s = Down -> 0 < len c -> wf c (transition s).
Proof.
  intros c [p k t] [H | H] L; cbn [ph] in H; subst p; unfold transition, wf; cbn [ph tgt];
    destruct t; cbn [ph pos tgt]; try reflexivity; split; lia.
Qed.

Lemma setTarget_wf : forall c on force s, wf c s -> wf c (fst (setTarget c on force s)).
Proof.
  intros c on force [p k t] H; unfold setTarget, wf in *; cbn [ph pos tgt] in *.
  destruct p; cbn [ph pos tgt] in *; destruct on, force; cbn [andb negb fst ph pos tgt]; try assumption; try reflexivity;
    unfold startRamp; try (destruct (Nat.eqb_spec (len c) 0); cbn [ph pos tgt]; [reflexivity|split; lia]); lia.
Qed.

(* one sample of a span *)
Definition norm (c : cfg) (s : ts) : ts :=
  match ph s with Up | Down => if len c <=? pos s then transition s else s | _ => s end.
Definition one (c : cfg) (s : ts) : ts * Z := processOne c (norm c s).
Fixpoint run (c : cfg) (s : ts) (n : nat) : ts * list Z :=
  match n with
  | 0 => (s, [])
  | S k => let '(s1, g) := one c s in let '(s2, gs) := run c s1 k in (s2, g :: gs)
  end.

Lemma run_app : forall c a b s,
  run c s (a + b) = let '(s1, g) := run c s a in let '(s2, h) := run c s1 b in (s2, g ++ h).
Proof.
  intros c a; induction a as [|a IH]; intros b s; cbn [Nat.add run].
  - destruct (run c s b); reflexivity.
  - destruct (one c s) as [s1 g]. rewrite IH. destruct (run c s1 a) as [s2 gs].
    destruct (run c s2 b) as [s3 hs]. reflexivity.
Qed.
Lemma run_length : forall c n s, length (snd (run c s n)) = n.
Proof.
  intros c n; induction n as [|n IH]; intros s; cbn [run]; [reflexivity|].
  destruct (one c s) as [s1 g]. specialize (IH s1). destruct (run c s1 n) as [s2 gs]. cbn [snd length] in *. congruence.
Qed.
Lemma run_off : forall c n k t, run c (mkT Off k t) n = (mkT Off k t, repeat 0%Z n).
Proof. intros c n k t; induction n as [|n IH]; cbn [run]; [reflexivity|]. unfold one, norm, processOne; cbn [ph]. rewrite IH. reflexivity. Qed.
Lemma run_on : forall c n k t, run c (mkT On k t) n = (mkT On k t, repeat (unity c) n).
Proof. intros c n k t; induction n as [|n IH]; cbn [run]; [reflexivity|]. unfold one, norm, processOne; cbn [ph]. rewrite IH. reflexivity. Qed.

Lemma one_ramp : forall c p k t, p = Up \/ p = Down -> k < len c ->
  one c (mkT p k t) = (if len c <=? S k then transition (mkT p (S k) t) else mkT p (S k) t, nth k (coef c p) 0%Z).
Proof.
  intros c p k t Hp Hk; unfold one, norm; cbn [ph pos].
  assert (E : (len c <=? k) = false) by (apply Nat.leb_gt; exact Hk).
  assert (E0 : (len c =? 0) = false) by (apply Nat.eqb_neq; lia).
  destruct Hp as [-> | ->]; rewrite E; unfold processOne; cbn [ph pos tgt]; rewrite E0, E; reflexivity.
Qed.

Lemma skipn_nth : forall (l : list Z) k, k < length l -> skipn k l = nth k l 0%Z :: skipn (S k) l.
Proof.
  induction l as [|x l IH]; intros k H; cbn [length] in H; [lia|].
  destruct k as [|k]; [reflexivity|]. cbn [skipn nth]. apply IH. lia.
Qed.

Lemma run_ramp : forall c p t, p = Up \/ p = Down -> length (coef c p) = len c -> forall n k, k + n <= len c -> 0 < n ->
  run c (mkT p k t) n =
  (if len c <=? k + n then transition (mkT p (k + n) t) else mkT p (k + n) t, firstn n (skipn k (coef c p))).
Proof.
  intros c p t Hp Hl n; induction n as [|n IH]; intros k Hk Hn; [lia|].
  cbn [run]. rewrite one_ramp by (assumption || lia).
  rewrite skipn_nth by lia. cbn [firstn].
  destruct (Nat.leb_spec (len c) (S k)) as [L | L].
  - assert (n = 0) by lia; subst n. cbn [run].
    replace (len c <=? k + 1) with true by (symmetry; apply Nat.leb_le; lia).
    replace (k + 1) with (S k) by lia. reflexivity.
  - destruct n as [|n].
    + cbn [run]. replace (len c <=? k + 1) with false by (symmetry; apply Nat.leb_gt; lia).
      replace (k + 1) with (S k) by lia. reflexivity.
    + rewrite IH by lia. replace (S k + S n) with (k + S (S n)) by lia. reflexivity.
Qed.

Lemma coef_len : forall c p, okCfg c -> length (coef c p) = len c.
Proof. intros c p H; destruct p; cbn [coef]; try reflexivity; exact H. Qed.

Lemma norm_idem : forall c s, 0 < len c -> norm c (norm c s) = norm c s.
Proof.
  intros c [p k t] L; unfold norm; cbn [ph pos].
  destruct p; cbn [ph]; try reflexivity; destruct (Nat.leb_spec (len c) k) as [H | H]; unfold transition; cbn [ph pos tgt];
    try (destruct t; cbn [ph pos]; try reflexivity);
    try (replace (len c <=? 0) with false by (symmetry; apply Nat.leb_gt; lia); reflexivity);
    try (replace (len c <=? k) with false by (symmetry; apply Nat.leb_gt; lia); reflexivity).
Qed.
Lemma run_norm : forall c s n, 0 < len c -> 0 < n -> run c (norm c s) n = run c s n.
Proof.
  intros c s [|n] L H; [lia|]. cbn [run]. unfold one. rewrite norm_idem by exact L. reflexivity.
Qed.

Definition full (c : cfg) (s : ts) : nat := match ph s with Up | Down => if len c <=? pos s then 1 else 0 | _ => 0 end.

Lemma transition_full : forall c s, 0 < len c -> full c (transition s) = 0.
Proof.
  intros c [p k t] L; unfold transition, full; cbn [ph pos tgt].
  assert (E : (len c <=? 0) = false) by (apply Nat.leb_gt; lia).
  destruct p, t; cbn [ph pos]; rewrite ?E; reflexivity.
Qed.

Lemma loop_run : forall c, okCfg c -> forall fuel n s, wf c s -> 2 * n + full c s <= fuel -> loop fuel c s n = run c s n.
Proof.
  intros c Hok fuel; induction fuel as [|fu IH]; intros n s Hw Hf.
  - assert (n = 0) by lia; subst n. reflexivity.
  - destruct n as [|n]; [reflexivity|].
    destruct s as [p k t].
    destruct p; cbn [loop ph].
    + symmetry. apply run_off.
    + { unfold wf in Hw; cbn [ph pos] in Hw.
        unfold applyRamp; cbn [ph pos tgt]. set (j := min (len c - k) (S n)).
        assert (Lg : length (firstn j (skipn k (coef c Up))) = j).
        { rewrite firstn_length, skipn_length, (coef_len c Up Hok). lia. }
        destruct (Nat.eq_dec k (len c)) as [Ek | Ek].
        - assert (Ej : j = 0) by lia. rewrite Ej in *. rewrite Nat.add_0_r.
          replace (len c <=? k) with true by (symmetry; apply Nat.leb_le; lia).
          rewrite Lg, Nat.sub_0_r.
          rewrite IH; [|apply transition_wf; [left; reflexivity|lia]|].
          + rewrite <- (run_norm c (mkT Up k t)) by lia.
            unfold norm; cbn [ph pos]. replace (len c <=? k) with true by (symmetry; apply Nat.leb_le; lia).
            destruct (run c (transition (mkT Up k t)) (S n)); reflexivity.
          + rewrite transition_full by lia. unfold full in Hf; cbn [ph pos] in Hf.
            replace (len c <=? k) with true in Hf by (symmetry; apply Nat.leb_le; lia). lia.
        - assert (Hj : 0 < j /\ j <= S n /\ k + j <= len c) by lia.
          rewrite Lg. rewrite IH.
          + replace (S n) with (j + (S n - j)) at 2 by lia. rewrite run_app.
            rewrite (run_ramp c Up t (or_introl eq_refl) (coef_len c Up Hok) j k) by lia. reflexivity.
          + destruct (Nat.leb_spec (len c) (k + j)) as [H | H]; [apply transition_wf; [left; reflexivity|lia]|].
            unfold wf; cbn [ph pos]. lia.
          + destruct (Nat.leb_spec (len c) (k + j)) as [H | H]; [rewrite transition_full by lia; lia|].
            unfold full; cbn [ph pos]. replace (len c <=? k + j) with false by (symmetry; apply Nat.leb_gt; lia). lia. }
    + symmetry. apply run_on.
    + { unfold wf in Hw; cbn [ph pos] in Hw.
        unfold applyRamp; cbn [ph pos tgt]. set (j := min (len c - k) (S n)).
        assert (Lg : length (firstn j (skipn k (coef c Down))) = j).
        { rewrite firstn_length, skipn_length, (coef_len c Down Hok). lia. }
        destruct (Nat.eq_dec k (len c)) as [Ek | Ek].
        - assert (Ej : j = 0) by lia. rewrite Ej in *. rewrite Nat.add_0_r.
          replace (len c <=? k) with true by (symmetry; apply Nat.leb_le; lia).
          rewrite Lg, Nat.sub_0_r.
          rewrite IH; [|apply transition_wf; [right; reflexivity|lia]|].
          + rewrite <- (run_norm c (mkT Down k t)) by lia.
            unfold norm; cbn [ph pos]. replace (len c <=? k) with true by (symmetry; apply Nat.leb_le; lia).
            destruct (run c (transition (mkT Down k t)) (S n)); reflexivity.
          + rewrite transition_full by lia. unfold full in Hf; cbn [ph pos] in Hf.
            replace (len c <=? k) with true in Hf by (symmetry; apply Nat.leb_le; lia). lia.
        - assert (Hj : 0 < j /\ j <= S n /\ k + j <= len c) by lia.
          rewrite Lg. rewrite IH.
          + replace (S n) with (j + (S n - j)) at 2 by lia. rewrite run_app.
            rewrite (run_ramp c Down t (or_intror eq_refl) (coef_len c Down Hok) j k) by lia. reflexivity.
          + destruct (Nat.leb_spec (len c) (k + j)) as [H | H]; [apply transition_wf; [right; reflexivity|lia]|].
            unfold wf; cbn [ph pos]. lia.
          + destruct (Nat.leb_spec (len c) (k + j)) as [H | H]; [rewrite transition_full by lia; lia|].
            unfold full; cbn [ph pos]. replace (len c <=? k + j) with false by (symmetry; apply Nat.leb_gt; lia). lia. }
Qed.

Lemma apply_run : forall c s n, okCfg c -> wf c s -> apply c s n = run c s n.
Proof.
  intros c s n Hok Hw; unfold apply. apply loop_run; [exact Hok|exact Hw|].
  unfold full. destruct (ph s); try lia; destruct (len c <=? pos s); lia.
Qed.

Lemma norm_wf : forall c s, wf c s -> wf c (norm c s).
Proof.
  intros c s H; unfold norm. destruct (ph s) eqn:P; try exact H; destruct (len c <=? pos s); try exact H;
    (apply transition_wf; [rewrite P; auto|]; unfold wf in H; rewrite P in H; lia).
Qed.
Lemma norm_low : forall c s, wf c s -> ph (norm c s) = Up \/ ph (norm c s) = Down -> pos (norm c s) < len c.
Proof.
  intros c [p k t] H; unfold norm, wf in *; cbn [ph pos tgt] in *. destruct p; cbn [ph pos]; intros [X | X]; try discriminate;
    revert X; destruct (Nat.leb_spec (len c) k) as [L | L]; unfold transition; cbn [ph pos tgt]; destruct t; cbn [ph pos];
    intros X; try discriminate; lia.
Qed.

Lemma processOne_wf : forall c s, wf c s -> wf c (fst (processOne c s)).
Proof.
  intros c [p k t] H; unfold processOne, wf in *; cbn [ph pos tgt] in *.
  destruct p; cbn [fst ph pos tgt]; try exact H.
  - destruct (Nat.eqb_spec (len c) 0) as [E | E]; [lia|]. cbn [orb].
    destruct (Nat.leb_spec (len c) k) as [L | L]; cbn [fst].
    + apply (transition_wf c (mkT Up k t)); [left; reflexivity|lia].
    + destruct (Nat.leb_spec (len c) (S k)); [apply (transition_wf c (mkT Up (S k) t)); [left; reflexivity|lia]|].
      cbn [ph pos]. lia.
  - destruct (Nat.eqb_spec (len c) 0) as [E | E]; [lia|]. cbn [orb].
    destruct (Nat.leb_spec (len c) k) as [L | L]; cbn [fst].
    + apply (transition_wf c (mkT Down k t)); [right; reflexivity|lia].
    + destruct (Nat.leb_spec (len c) (S k)); [apply (transition_wf c (mkT Down (S k) t)); [right; reflexivity|lia]|].
      cbn [ph pos]. lia.
Qed.
Lemma one_wf : forall c s, wf c s -> wf c (fst (one c s)).
Proof. intros c s H; unfold one. apply processOne_wf, norm_wf, H. Qed.
Lemma run_wf : forall c n s, wf c s -> wf c (fst (run c s n)).
Proof.
  intros c n; induction n as [|n IH]; intros s H; cbn [run]; [exact H|].
  assert (H1 := one_wf c s H). destruct (one c s) as [s1 g]. cbn [fst] in H1. specialize (IH s1 H1).
  destruct (run c s1 n) as [s2 gs]. exact IH.
Qed.
Lemma step_wf : forall c o s, okCfg c -> wf c s -> wf c (fst (step c s o)).
Proof.
  intros c [on f|n|] s Hok H; cbn [step].
  - apply setTarget_wf, H.
  - rewrite apply_run by assumption. apply run_wf, H.
  - assert (X := processOne_wf c s H). destruct (processOne c s). exact X.
Qed.
Lemma exec_wf : forall c os s, okCfg c -> wf c s -> wf c (fst (exec c s os)).
Proof.
  intros c os; induction os as [|o os IH]; intros s Hok H; cbn [exec]; [exact H|].
  assert (H1 := step_wf c o s Hok H). destruct (step c s o) as [s1 g]. cbn [fst] in H1.
  specialize (IH s1 Hok H1). destruct (exec c s1 os). exact IH.
Qed.
Lemma exec_app : forall c a b s,
  exec c s (a ++ b) = let '(s1, g) := exec c s a in let '(s2, h) := exec c s1 b in (s2, g ++ h).
Proof.
  intros c a; induction a as [|o a IH]; intros b s; cbn [app exec].
  - destruct (exec c s b); reflexivity.
  - destruct (step c s o) as [s1 g]. rewrite IH. destruct (exec c s1 a) as [s2 gs].
    destruct (exec c s2 b) as [s3 hs]. rewrite app_assoc. reflexivity.
Qed.

(* single samples *)
Lemma good_one : forall c s, wf c s -> good c s -> processOne c s = one c s.
Proof.
  intros c [p k t] Hw Hg; unfold one, norm, wf, good in *; cbn [ph pos tgt] in *. destruct p; try reflexivity.
  - destruct (Nat.leb_spec (len c) k) as [L | L]; [|reflexivity].
    destruct Hg as [Hg | ->]; [lia|]. unfold processOne, transition; cbn [ph pos tgt].
    replace (len c <=? k) with true by (symmetry; apply Nat.leb_le; lia). rewrite orb_true_r. reflexivity.
  - destruct (Nat.leb_spec (len c) k) as [L | L]; [|reflexivity].
    destruct Hg as [Hg | ->]; [lia|]. unfold processOne, transition; cbn [ph pos tgt].
    replace (len c <=? k) with true by (symmetry; apply Nat.leb_le; lia). rewrite orb_true_r. reflexivity.
Qed.

Definition low (c : cfg) (s : ts) : Prop := ph s = Up \/ ph s = Down -> pos s < len c.
Lemma low_good : forall c s, low c s -> good c s.
Proof. intros c s H; unfold good, low in *. destruct (ph s); auto. Qed.
Lemma one_low : forall c s, wf c s -> low c (fst (one c s)).
Proof.
  intros c s Hw. assert (N := norm_low c s Hw). assert (W := norm_wf c s Hw). unfold one.
  destruct (norm c s) as [p k t]. unfold wf in W; cbn [ph pos tgt] in *.
  destruct p; unfold processOne; cbn [ph pos tgt].
  - intros [X | X]; discriminate.
  - specialize (N (or_introl eq_refl)).
    replace ((len c =? 0) || (len c <=? k)) with false
      by (symmetry; apply orb_false_iff; split; [apply Nat.eqb_neq; lia|apply Nat.leb_gt; lia]).
    cbn [fst]. destruct (Nat.leb_spec (len c) (S k)) as [L | L]; unfold low, transition; cbn [ph pos tgt].
    + intros _. lia.
    + intros _. lia.
  - intros [X | X]; discriminate.
  - specialize (N (or_intror eq_refl)).
    replace ((len c =? 0) || (len c <=? k)) with false
      by (symmetry; apply orb_false_iff; split; [apply Nat.eqb_neq; lia|apply Nat.leb_gt; lia]).
    cbn [fst]. destruct (Nat.leb_spec (len c) (S k)) as [L | L]; unfold low, transition; cbn [ph pos tgt].
    + intros _. lia.
    + intros _. lia.
Qed.

Lemma exec_ones : forall c n s, wf c s -> good c s -> exec c s (ones n) = run c s n.
Proof.
  intros c n; induction n as [|n IH]; intros s Hw Hg; cbn [ones exec run step]; [reflexivity|].
  rewrite (good_one c s Hw Hg).
  assert (W := one_wf c s Hw). assert (L := one_low c s Hw). destruct (one c s) as [s1 g]; cbn [fst] in *.
  rewrite (IH s1 W (low_good c s1 L)). destruct (run c s1 n). reflexivity.
Qed.

(* without force no ramp is at its end between calls *)
Lemma run_low : forall c n s, wf c s -> low c s -> low c (fst (run c s n)).
Proof.
  intros c n; induction n as [|n IH]; intros s Hw Hl; cbn [run]; [exact Hl|].
  assert (W := one_wf c s Hw). assert (L := one_low c s Hw). destruct (one c s) as [s1 g]; cbn [fst] in *.
  specialize (IH s1 W L). destruct (run c s1 n). exact IH.
Qed.
Lemma step_low : forall c o s, okCfg c -> wf c s -> low c s -> unforced o -> low c (fst (step c s o)).
Proof.
  intros c [on f|n|] s Hok Hw Hl Hu; cbn [step unforced] in *.
  - subst f. destruct s as [p k t]; unfold low, wf in *; cbn [ph pos tgt] in *. unfold setTarget, startRamp; cbn [ph pos tgt].
    destruct p, on; cbn [andb negb fst ph pos]; try (destruct (Nat.eqb_spec (len c) 0)); cbn [fst ph pos];
      intros [X | X]; try discriminate; try lia; apply Hl; auto.
  - rewrite apply_run by assumption. apply run_low; assumption.
  - rewrite good_one by (assumption || apply low_good; assumption).
    assert (L := one_low c s Hw). destruct (one c s). exact L.
Qed.
Lemma exec_low : forall c os s, okCfg c -> wf c s -> low c s -> (forall o, In o os -> unforced o) -> low c (fst (exec c s os)).
Proof.
  intros c os; induction os as [|o os IH]; intros s Hok Hw Hl Hu; cbn [exec]; [exact Hl|].
  assert (W := step_wf c o s Hok Hw).
  assert (L := step_low c o s Hok Hw Hl (Hu o (or_introl eq_refl))).
  destruct (step c s o) as [s1 g]; cbn [fst] in *.
  specialize (IH s1 Hok W L (fun x Hx => Hu x (or_intror Hx))). destruct (exec c s1 os). exact IH.
Qed.

(* ---------------- levels ---------------- *)

(* the whole ramp with its ends; gains are its elements *)
Definition ramp (c : cfg) : list Z := 0%Z :: rise c ++ [unity c].
Definition level (c : cfg) (i : nat) : Z := nth i (ramp c) 0%Z.
(* the last gain was level i *)
Definition at_ (c : cfg) (s : ts) (i : nat) : Prop :=
  match ph s with
  | Off => i <= 1 /\ i <= len c + 1
  | On => len c <= i <= len c + 1
  | Up => pos s <= i <= pos s + 1
  | Down => len c - pos s <= i <= len c - pos s + 1
  end.

Lemma level_rise : forall c k, k < len c -> level c (S k) = nth k (rise c) 0%Z.
Proof. intros c k H; unfold level, ramp; cbn [nth]. apply app_nth1. exact H. Qed.
Lemma level_fall : forall c k, mirrored c -> k < len c -> level c (len c - k) = nth k (fall c) 0%Z.
Proof.
  intros c k M H. rewrite M, rev_nth by exact H. unfold len in *.
  replace (length (rise c) - k) with (S (length (rise c) - S k)) by lia. apply level_rise. unfold len. lia.
Qed.
Lemma level_top : forall c, level c (len c + 1) = unity c.
Proof.
  intros c; unfold level, ramp. rewrite Nat.add_1_r. cbn [nth]. rewrite app_nth2 by (unfold len; lia).
  replace (len c - length (rise c)) with 0 by (unfold len; lia). reflexivity.
Qed.

Lemma transition_at : forall c s i, wf c s -> ph s = Up \/ ph s = Down -> pos s = len c -> at_ c s i -> at_ c (transition s) i.
Proof.
  intros c [p k t] i W [P | P] E A; cbn [ph pos] in *; subst p; unfold at_, transition, wf in *; cbn [ph pos tgt] in *; subst k;
    destruct t; cbn [ph pos]; lia.
Qed.
Lemma norm_at : forall c s i, wf c s -> at_ c s i -> at_ c (norm c s) i.
Proof.
  intros c s i W A; unfold norm. destruct (ph s) eqn:P; try exact A; destruct (Nat.leb_spec (len c) (pos s)) as [L | L]; try exact A;
    (apply transition_at; [exact W|rewrite P; auto| |exact A]; unfold wf in W; rewrite P in W; lia).
Qed.

Lemma one_at : forall c s i, mirrored c -> wf c s -> at_ c s i ->
  exists j, snd (one c s) = level c j /\ j <= len c + 1 /\ (i <= j + 1 /\ j <= i + 1) /\ at_ c (fst (one c s)) j.
Proof.
  intros c s i M Hw A. assert (N := norm_low c s Hw). assert (W := norm_wf c s Hw). assert (A' := norm_at c s i Hw A).
  unfold one. destruct (norm c s) as [p k t]. clear A Hw s. unfold wf in W; cbn [ph pos tgt] in *.
  destruct p; unfold processOne; cbn [ph pos tgt].
  - exists 0. unfold at_ in A'; cbn [ph pos] in A'. split; [reflexivity|]. split; [lia|]. split; [lia|].
    cbn [fst]. unfold at_; cbn [ph]. lia.
  - specialize (N (or_introl eq_refl)).
    replace ((len c =? 0) || (len c <=? k)) with false
      by (symmetry; apply orb_false_iff; split; [apply Nat.eqb_neq; lia|apply Nat.leb_gt; lia]).
    cbn [fst snd coef]. exists (S k). unfold at_ in A'; cbn [ph pos] in A'.
    split; [symmetry; apply level_rise; exact N|]. split; [lia|]. split; [lia|].
    destruct (Nat.leb_spec (len c) (S k)) as [L | L].
    + apply transition_at; [unfold wf; cbn [ph pos]; lia|left; reflexivity|cbn [pos]; lia|unfold at_; cbn [ph pos]; lia].
    + unfold at_; cbn [ph pos]. lia.
  - exists (len c + 1). unfold at_ in A'; cbn [ph pos] in A'. split; [symmetry; apply level_top|]. split; [lia|]. split; [lia|].
    cbn [fst]. unfold at_; cbn [ph]. lia.
  - specialize (N (or_intror eq_refl)).
    replace ((len c =? 0) || (len c <=? k)) with false
      by (symmetry; apply orb_false_iff; split; [apply Nat.eqb_neq; lia|apply Nat.leb_gt; lia]).
    cbn [fst snd coef]. exists (len c - k). unfold at_ in A'; cbn [ph pos] in A'.
    split; [symmetry; apply level_fall; assumption|]. split; [lia|]. split; [lia|].
    destruct (Nat.leb_spec (len c) (S k)) as [L | L].
    + apply transition_at; [unfold wf; cbn [ph pos]; lia|right; reflexivity|cbn [pos]; lia|unfold at_; cbn [ph pos]; lia].
    + unfold at_; cbn [ph pos]. lia.
Qed.

Lemma setTarget_at : forall c on f s i, wf c s -> at_ c s i -> at_ c (fst (setTarget c on f s)) i.
Proof.
  intros c on f [p k t] i W A; unfold setTarget, startRamp, at_, wf in *; cbn [ph pos tgt] in *.
  destruct p, on, f; cbn [andb negb fst ph pos]; try (destruct (Nat.eqb_spec (len c) 0)); cbn [fst ph pos]; lia.
Qed.

(* neighbours of levels *)
Inductive walk (c : cfg) : nat -> list Z -> nat -> Prop :=
| walk_nil : forall i, walk c i [] i
| walk_cons : forall i j gs k, i <= j + 1 -> j <= i + 1 -> j <= len c + 1 -> walk c j gs k -> walk c i (level c j :: gs) k.

Lemma walk_app : forall c i g j h k, walk c i g j -> walk c j h k -> walk c i (g ++ h) k.
Proof. intros c i g j h k W; induction W; intros Q; cbn [app]; [exact Q|]. constructor; auto. Qed.

Lemma run_walk : forall c n s i, mirrored c -> wf c s -> at_ c s i ->
  exists k, walk c i (snd (run c s n)) k /\ at_ c (fst (run c s n)) k.
Proof.
  intros c n; induction n as [|n IH]; intros s i M W A; cbn [run].
  - exists i. split; [constructor|exact A].
  - destruct (one_at c s i M W A) as (j & E & J & (N1 & N2) & A1). assert (W1 := one_wf c s W).
    destruct (one c s) as [s1 g]; cbn [fst snd] in *. subst g.
    destruct (IH s1 j M W1 A1) as (k & K & A2). destruct (run c s1 n) as [s2 gs]; cbn [fst snd] in *.
    exists k. split; [constructor; assumption|exact A2].
Qed.
Lemma exec_walk : forall c os s i, mirrored c -> wf c s -> at_ c s i -> spans os ->
  exists k, walk c i (snd (exec c s os)) k /\ at_ c (fst (exec c s os)) k.
Proof.
  intros c os; induction os as [|o os IH]; intros s i M W A Sp; cbn [exec].
  - exists i. split; [constructor|exact A].
  - assert (W1 := step_wf c o s (mirrored_ok c M) W).
    assert (X : exists j, walk c i (snd (step c s o)) j /\ at_ c (fst (step c s o)) j).
    { destruct o as [on f|n|]; cbn [step].
      - exists i. cbn [fst snd]. split; [constructor|]. apply setTarget_at; assumption.
      - rewrite apply_run by (assumption || apply mirrored_ok; assumption). apply run_walk; assumption.
      - exfalso. exact (Sp One (or_introl eq_refl) eq_refl). }
    destruct X as (j & K1 & A1). destruct (step c s o) as [s1 g]; cbn [fst snd] in *.
    destruct (IH s1 j M W1 A1 (fun x Hx => Sp x (or_intror Hx))) as (k & K & A2).
    destruct (exec c s1 os) as [s2 gs]; cbn [fst snd] in *.
    exists k. split; [exact (walk_app _ _ _ _ _ _ K1 K)|exact A2].
Qed.

Lemma level_near : forall c d i j, smooth d (ramp c) -> (0 <= d)%Z -> i <= j + 1 -> j <= i + 1 -> i <= len c + 1 -> j <= len c + 1 ->
  (Z.abs (level c j - level c i) <= d)%Z.
Proof.
  intros c d i j S D H1 H2 Hi Hj.
  assert (L : length (ramp c) = len c + 2) by (unfold ramp, len; cbn [length]; rewrite app_length; cbn [length]; lia).
  assert (E : forall k, k < length (ramp c) -> nth_error (ramp c) k = Some (level c k))
    by (intros k Hk; unfold level; apply nth_error_nth'; exact Hk).
  assert (i = j \/ j = Datatypes.S i \/ i = Datatypes.S j) as [-> | [-> | ->]] by lia.
  - rewrite Z.sub_diag. exact D.
  - apply (S i); apply E; lia.
  - replace (level c j - level c (Datatypes.S j))%Z with (- (level c (Datatypes.S j) - level c j))%Z by lia.
    rewrite Z.abs_opp. apply (S j); apply E; lia.
Qed.

Lemma walk_smooth : forall c d i gs k, smooth d (ramp c) -> (0 <= d)%Z -> i <= len c + 1 -> walk c i gs k ->
  smooth d (level c i :: gs).
Proof.
  intros c d i gs k S D Hi W. induction W as [i|i j gs k N1 N2 Hj W IH].
  - intros n x y Hx Hy. destruct n as [|n]; cbn [nth_error] in Hy; [discriminate|destruct n; discriminate].
  - specialize (IH Hj). intros n x y Hx Hy. destruct n as [|n].
    + cbn [nth_error] in Hx, Hy. assert (level c i = x) by congruence. assert (level c j = y) by congruence. subst.
      apply level_near; assumption.
    + cbn [nth_error] in Hx. apply (IH n x y); assumption.
Qed.

(* ---------------- settling ---------------- *)

Definition todo (c : cfg) (s : ts) : nat :=
  match ph s with
  | Off | On => 0
  | Up => if tgt s then max 1 (len c - pos s) else (len c - pos s) + len c
  | Down => if tgt s then (len c - pos s) + len c else max 1 (len c - pos s)
  end.
Lemma todo_bound : forall c s, wf c s -> todo c s <= 2 * len c.
Proof. intros c [p k t] W; unfold todo, wf in *; cbn [ph pos tgt] in *; destruct p, t; lia. Qed.
Lemma todo_one : forall c s, wf c s -> 0 < todo c s -> todo c (fst (one c s)) < todo c s.
Proof.
  intros c [p k t] W T.
  assert (P : p = Up \/ p = Down) by (unfold todo in T; cbn [ph] in T; destruct p; auto; lia).
  assert (W' : k <= len c /\ 0 < len c) by (unfold wf in W; destruct P as [-> | ->]; exact W).
  destruct (Nat.eq_dec k (len c)) as [E | E].
  - unfold one, norm; cbn [ph pos]. replace (len c <=? k) with true by (symmetry; apply Nat.leb_le; lia).
    assert (E0 : (len c =? 0) = false) by (apply Nat.eqb_neq; lia).
    assert (E1 : (len c <=? 0) = false) by (apply Nat.leb_gt; lia).
    destruct P as [-> | ->]; unfold transition; cbn [ph tgt]; destruct t; unfold processOne; cbn [ph pos tgt fst];
      rewrite ?E0, ?E1; cbn [orb fst]; unfold todo; cbn [ph pos tgt]; try lia;
      (destruct (Nat.leb_spec (len c) 1); unfold transition; cbn [ph pos tgt]; lia).
  - rewrite (one_ramp c p k t P) by lia. cbn [fst].
    destruct P as [-> | ->]; destruct (Nat.leb_spec (len c) (S k)); unfold transition, todo; cbn [ph pos tgt]; destruct t; cbn [ph pos tgt]; lia.
Qed.
Lemma one_tgt : forall c s, tgt (fst (one c s)) = tgt s.
Proof.
  intros c [p k t]; unfold one, norm, processOne, transition; cbn [ph pos tgt].
  destruct p; cbn [ph pos tgt fst]; try reflexivity; destruct (len c <=? k) eqn:E1; cbn [ph pos tgt]; destruct t; cbn [ph pos tgt fst];
    try reflexivity; rewrite ?E1, ?orb_false_r;
    repeat match goal with |- context [if ?b then _ else _] => destruct b end; reflexivity.
Qed.
Lemma run_settles : forall c n s, wf c s -> todo c s <= n -> todo c (fst (run c s n)) = 0 /\ tgt (fst (run c s n)) = tgt s.
Proof.
  intros c n; induction n as [|n IH]; intros s W T; cbn [run].
  - cbn [fst]. split; [lia|reflexivity].
  - assert (W1 := one_wf c s W). assert (T1 := one_tgt c s).
    assert (D : todo c (fst (one c s)) <= n).
    { destruct (Nat.eq_dec (todo c s) 0) as [Z | Z]; [|assert (X := todo_one c s W); lia].
      assert (P : ph s = Off \/ ph s = On).
      { destruct s as [p k t]; unfold todo, wf in *; cbn [ph pos tgt] in *; destruct p; auto; destruct t; lia. }
      destruct s as [p k t]; cbn [ph] in P; destruct P as [-> | ->]; unfold one, norm, processOne; cbn [ph fst]; unfold todo; cbn [ph]; lia. }
    destruct (one c s) as [s1 g]; cbn [fst] in *. specialize (IH s1 W1 D).
    destruct (run c s1 n) as [s2 gs]; cbn [fst] in *. destruct IH as [A B]. split; [exact A|congruence].
Qed.
