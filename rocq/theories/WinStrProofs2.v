From Coq Require Import Arith Lia Bool List Sorted.
From Verif Require Import WinModel WinSpec WinStrSpec WinStrProofs.
From Verif Require WinProofs.
Import ListNotations.

Local Open Scope nat_scope.

Section R.
Context {A T : Type}.

(* ---------- runs of [take] ---------- *)

Definition takes (zs : stream A T) (r : ref A T) : ref A T := fold_left (fun r z => take z r) zs r.
Definition bare (xs : list A) : stream A T := map (fun y => (y, [])) xs.

Lemma takes_app a b r : takes (a ++ b) r = takes b (takes a r).
Proof. apply fold_left_app. Qed.

Lemma span_cons (ts : list T) (x : A) xs : spanOf ts (x :: xs) = (x, ts) :: bare xs.
Proof. reflexivity. Qed.

Lemma skip_bare xs : forall r, md r = Off -> takes (bare xs) r = mkRef (past r ++ xs) (pend r) (opened r) Off (due r) (rout r) (rtags r).
Proof.
  induction xs as [|x xs IH]; intros r H.
  - cbn. rewrite app_nil_r, <- H. destruct r; reflexivity.
  - change (takes (bare (x :: xs)) r) with (takes (bare xs) (take (x, []) r)). unfold take at 1. rewrite H. rewrite IH by reflexivity. cbn. rewrite app_nil_r, <- app_assoc. reflexivity.
Qed.

Lemma skip_span (ts : list T) (xs : list A) (r : ref A T) : (md r = Off \/ md r = Post 0) -> xs <> [] ->
  takes (spanOf ts xs) r = mkRef (past r ++ xs) (pend r ++ map (pair (length (past r))) ts) (opened r) Off (due r) (rout r) (rtags r).
Proof.
  intros H Hx. destruct xs as [|x xs]; [congruence|]. rewrite span_cons. change (takes ((x, ts) :: bare xs) r) with (takes (bare xs) (take (x, ts) r)).
  unfold take at 1. destruct H as [-> | ->]; rewrite skip_bare by reflexivity; cbn; rewrite <- app_assoc; reflexivity.
Qed.

Definition dec (m : mode) (n : nat) : mode :=
  match m with Post j => if j - n =? 0 then Off else Post (j - n) | m => m end.
Definition passes (m : mode) (n : nat) : Prop := match m with Off => False | Body => True | Post j => n <= j end.

Lemma pass_one (x : A) (ts : list T) (r : ref A T) : passes (md r) 1 ->
  take (x, ts) r = mkRef (past r ++ [x]) [] (opened r) (dec (md r) 1) (due r) (rout r ++ [x])
    (rtags r ++ mergedAt (length (rout r)) (pend r) ++ map (fun t => (length (rout r), Own t)) ts).
Proof.
  intros H. unfold take. destruct (md r) as [| |[|[|j]]]; cbn [passes] in H; try lia; try contradiction; reflexivity.
Qed.

Lemma dec_dec m a b : passes m (a + b) -> 0 < b -> dec (dec m a) b = dec m (a + b).
Proof.
  destruct m as [| |j]; cbn [passes dec]; try contradiction; [reflexivity|]. intros H Hb. destruct (j - a =? 0) eqn:E; [apply Nat.eqb_eq in E; lia|]. cbn [dec]. rewrite Nat.sub_add_distr. reflexivity.
Qed.
Lemma passes_dec m a b : passes m (a + b) -> 0 < b -> passes (dec m a) b.
Proof.
  destruct m as [| |j]; cbn [passes dec]; try contradiction; [trivial|]. intros H Hb. destruct (j - a =? 0) eqn:E; [apply Nat.eqb_eq in E; lia|]. cbn [passes]. lia.
Qed.
Lemma passes_le m a b : passes m a -> b <= a -> passes m b.
Proof. destruct m; cbn [passes]; try contradiction; [trivial|lia]. Qed.

Lemma pass_bare (xs : list A) : forall r : ref A T, xs <> [] -> passes (md r) (length xs) -> pend r = [] ->
  takes (bare xs) r = mkRef (past r ++ xs) [] (opened r) (dec (md r) (length xs)) (due r) (rout r ++ xs) (rtags r).
Proof.
  induction xs as [|x xs IH]; intros r Hx H Hp; [congruence|].
  change (takes (bare (x :: xs)) r) with (takes (bare xs) (take (x, []) r)). rewrite pass_one by (eapply passes_le; [exact H|cbn; lia]). rewrite Hp. cbn [mergedAt map app]. rewrite app_nil_r.
  destruct xs as [|y xs]; [cbn; reflexivity|]. change (length (x :: y :: xs)) with (1 + length (y :: xs)) in *.
  rewrite IH; cbn [md past pend opened due rout rtags]; [|discriminate|apply passes_dec; [exact H|cbn; lia]|reflexivity].
  rewrite dec_dec by (exact H || cbn; lia). rewrite <- !app_assoc. reflexivity.
Qed.

Lemma pass_span (ts : list T) (xs : list A) (r : ref A T) : xs <> [] -> passes (md r) (length xs) ->
  takes (spanOf ts xs) r = mkRef (past r ++ xs) [] (opened r) (dec (md r) (length xs)) (due r) (rout r ++ xs)
    (rtags r ++ mergedAt (length (rout r)) (pend r) ++ map (fun t => (length (rout r), Own t)) ts).
Proof.
  intros Hx H. destruct xs as [|x xs]; [congruence|]. rewrite span_cons. change (takes ((x, ts) :: bare xs) r) with (takes (bare xs) (take (x, ts) r)).
  rewrite pass_one by (eapply passes_le; [exact H|cbn; lia]). destruct xs as [|y xs]; [reflexivity|]. change (length (x :: y :: xs)) with (1 + length (y :: xs)) in *.
  rewrite pass_bare; cbn [md past pend opened due rout rtags]; [|discriminate|apply passes_dec; [exact H|cbn; lia]|reflexivity].
  rewrite dec_dec by (exact H || cbn; lia). rewrite <- !app_assoc. reflexivity.
Qed.

(* ---------- the reference machine ---------- *)

Context (c : wcfg) (single : bool) (SS EE : T -> bool).

Definition Good (r : ref A T) : Prop :=
  (single = true -> opened r = false) /\ (md r = Off -> due r = false) /\
  (md r <> Off -> due r = false -> nPre c = 0 \/ pend r = []).

Lemma ev_nil (r : ref A T) : ev c single SS EE [] r = r.
Proof. unfold ev. cbn [existsb]. destruct single; [reflexivity|]. destruct (opened r); reflexivity. Qed.

Lemma flush_flush (r : ref A T) : flush c (flush c r) = flush c r.
Proof. unfold flush at 2 3. destruct (due r) eqn:E; [destruct (min _ _ =? 0); reflexivity|]. unfold flush. rewrite E. reflexivity. Qed.

Lemma flush_due (r : ref A T) : due (flush c r) = false.
Proof. unfold flush. destruct (due r) eqn:E; [destruct (min _ _ =? 0); reflexivity|exact E]. Qed.

Lemma flush_not (r : ref A T) : due r = false -> flush c r = r.
Proof. intros E. unfold flush. rewrite E. reflexivity. Qed.

Lemma ev_ev (ts : list T) (r : ref A T) : (existsb SS ts = true -> existsb EE ts = false) -> ev c single SS EE ts (ev c single SS EE ts r) = ev c single SS EE ts r.
Proof.
  intros D. unfold ev. destruct single.
  - destruct (existsb SS ts) eqn:E; [|reflexivity]. destruct (md r) eqn:Em; cbn [md]; try rewrite Em; try reflexivity.
  - destruct (opened r) eqn:Eo.
    + destruct (existsb EE ts) eqn:E; cbn [opened]; [|rewrite Eo; reflexivity]. destruct (existsb SS ts) eqn:E2; [specialize (D eq_refl); congruence|reflexivity].
    + destruct (existsb SS ts) eqn:E; [|rewrite Eo; reflexivity]. destruct (md r); cbn [opened]; rewrite (D eq_refl); reflexivity.
Qed.

Lemma ev_flush_ev (ts : list T) (r : ref A T) : (existsb SS ts = true -> existsb EE ts = false) -> ev c single SS EE ts (flush c (ev c single SS EE ts r)) = flush c (ev c single SS EE ts r).
Proof.
  intros D. pose proof (ev_ev ts r D) as H. set (q := ev c single SS EE ts r) in *. unfold flush. destruct (due q) eqn:Ed; [|exact H].
  assert (G : forall q' : ref A T, opened q' = opened q -> md q' = md q -> ev c single SS EE ts q' = q').
  { intros q' H1 H2. revert H. unfold ev. rewrite H1, H2. destruct single.
    - destruct (existsb SS ts); [|reflexivity]. destruct (md q) eqn:Em; try reflexivity. intros H. exfalso. apply (f_equal md) in H. cbn [md] in H. congruence.
    - destruct (opened q) eqn:Eo; [destruct (existsb EE ts); [|reflexivity]|destruct (existsb SS ts); [|reflexivity]].
      + intros H. exfalso. apply (f_equal opened) in H. cbn [opened] in H. congruence.
      + intros H. exfalso. apply (f_equal opened) in H. destruct (md q); cbn [opened] in H; congruence. }
  destruct (min _ _ =? 0); apply G; reflexivity.
Qed.

Lemma ev_good (ts : list T) (r : ref A T) : Good r -> Good (ev c single SS EE ts r).
Proof.
  unfold Good, ev. intros (G1 & G2 & G3). destruct single eqn:Es.
  - destruct (existsb SS ts); [|auto]. destruct (md r) eqn:Em; [|rewrite Em; auto ..].
    repeat split; cbn [md due opened pend]; auto; discriminate.
  - destruct (opened r) eqn:Eo; [destruct (existsb EE ts); [|rewrite Eo; auto]|destruct (existsb SS ts); [|rewrite Eo; auto]].
    + repeat split; cbn [md due opened pend]; try discriminate.
      * destruct (md r) eqn:Em; try discriminate. intros _. apply G2. reflexivity.
      * intros H. apply G3. intros E. rewrite E in H. congruence.
    + destruct (md r) eqn:Em; repeat split; cbn [md due opened pend]; try discriminate; auto.
Qed.

Lemma flush_good (r : ref A T) : Good r -> Forall (fun e => fst e < length (past r)) (pend r) -> Good (flush c r).
Proof.
  intros (G1 & G2 & G3) Hl. unfold flush. destruct (due r) eqn:E; [|unfold Good; rewrite E; auto]. destruct (min (nPre c) (length (past r)) =? 0) eqn:En; repeat split; cbn [md due opened pend]; auto.
  intros _ _. apply Nat.eqb_eq in En. destruct (Nat.eq_dec (nPre c) 0) as [Z|Z]; [left; exact Z|right]. assert (length (past r) = 0) by lia.
  destruct (pend r) as [|e l]; [reflexivity|]. apply Forall_cons_iff in Hl. destruct Hl. lia.
Qed.

End R.
