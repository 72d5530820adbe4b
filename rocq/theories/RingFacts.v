(** Consequences of the refinement in RingProofs, stated for histories. *)
From Coq Require Import List ZArith Bool Lia.
From Verif Require Import Base RingModel RingSpec RingArithProofs RingProofs.
Import ListNotations.
Local Open Scope Z_scope.
Require Import ZifyBool ZifyNat.
Ltac Zify.zify_post_hook ::= idtac.

Section Facts.
Context {A : Type}.
Implicit Types (c : config A) (s : ring A) (a : aring A).

(** The contract-respecting history [ops] from a new buffer with element contents [m] leads the code to [s] and the
    specification to [a], with the same outputs. *)
Definition history c m (ops : list (op A)) s a : Prop :=
  exists xs, arun c ainit ops = Some (a, xs) /\ run c (init m) ops = Some (s, xs).

(** The history follows the call contract of the specification. *)
Definition legal c (ops : list (op A)) : Prop := exists a xs, arun c ainit ops = Some (a, xs).

Lemma history_rel c m ops s a : 0 < cap c <= lim -> history c m ops s a -> Rel c s a.
Proof.
  intros Hc (xs & E1 & E2). destruct (sim_run c ops _ _ _ _ (Rel_init c m Hc) E1) as (s' & E & H).
  rewrite E2 in E. inversion E; subst. exact H.
Qed.

Lemma legal_history c m ops : 0 < cap c <= lim -> legal c ops -> exists s a, history c m ops s a.
Proof. intros Hc (a & xs & E). destruct (refinement c m ops a xs Hc E) as [s S]. exists s, a, xs. auto. Qed.

Lemma arun_app c a o1 o2 : arun c a (o1 ++ o2) =
  match arun c a o1 with None => None | Some (a1, x1) => match arun c a1 o2 with None => None | Some (a2, x2) => Some (a2, x1 ++ x2) end end.
Proof.
  revert a; induction o1 as [|o o1 IH]; intros a; cbn [app arun].
  - destruct (arun c a o2) as [[]|]; reflexivity.
  - destruct (astep c a o) as [[a1 x]|]; [|reflexivity]. rewrite IH. destruct (arun c a1 o1) as [[a2 x1]|]; [|reflexivity].
    destruct (arun c a2 o2) as [[]|]; reflexivity.
Qed.
Lemma run_app c s o1 o2 : run c s (o1 ++ o2) =
  match run c s o1 with None => None | Some (a1, x1) => match run c a1 o2 with None => None | Some (a2, x2) => Some (a2, x1 ++ x2) end end.
Proof.
  revert s; induction o1 as [|o o1 IH]; intros a; cbn [app run].
  - destruct (run c a o2) as [[]|]; reflexivity.
  - destruct (step c a o) as [[a1 x]|]; [|reflexivity]. rewrite IH. destruct (run c a1 o1) as [[a2 x1]|]; [|reflexivity].
    destruct (run c a2 o2) as [[]|]; reflexivity.
Qed.

Lemma history_extend c m ops s a o2 a' ys : 0 < cap c <= lim -> history c m ops s a -> arun c a o2 = Some (a', ys) ->
  exists s', run c s o2 = Some (s', ys) /\ history c m (ops ++ o2) s' a'.
Proof.
  intros Hc H E. pose proof (history_rel _ _ _ _ _ Hc H) as R. destruct H as (xs & E1 & E2).
  destruct (sim_run c o2 s a a' ys R E) as (s' & S & R'). exists s'. split; [exact S|].
  exists (xs ++ ys). rewrite arun_app, run_app, E1, E2, E, S. auto.
Qed.

(** *** The stream is append-only *)
Lemma recycle_same c a a' : arecycle c a = Some a' ->
  a_stream a' = a_stream a /\ a_pend a' = a_pend a /\ a_req a' = a_req a /\ a_inst a' = a_inst a /\ a_fresh a' = a_fresh a /\ a_readers a' = a_readers a.
Proof.
  unfold arecycle. destruct (clr c); [|intros E; inversion E; subst; auto 10].
  destruct (slowest (positions a)); [|intros E; inversion E; subst; auto 10].
  destruct (_ <=? a_wm a); [intros E; inversion E; subst; auto 10|].
  destruct (_ <=? _); [|discriminate]. intros E; inversion E; subst; cbn; auto 10.
Qed.

Lemma astep_stream c a o a' x : astep c a o = Some (a', x) -> exists vs, a_stream a' = a_stream a ++ vs.
Proof.
  assert (Z : forall l : list A, l = l ++ []) by (intros; rewrite app_nil_r; reflexivity).
  destruct o; cbn [astep]; intros E.
  - destruct (Nat.eqb (a_inst a) 0); inversion E; subst. exists []. apply Z.
  - destruct (negb _ || _ || _); [discriminate|]. destruct (n =? 0); [inversion E; subst; exists []; apply Z|].
    destruct (apressure c a) as [a1|] eqn:Ep; [|discriminate]. destruct (pressure_same _ _ _ Ep) as (P1 & _).
    destruct (free c a1 <? n); inversion E; subst; exists []; cbn; rewrite P1; apply Z.
  - destruct (_ && _ && _); inversion E; subst. exists []; apply Z.
  - destruct (Nat.eqb _ _); inversion E; subst. exists []; apply Z.
  - destruct (_ || _ || _); inversion E; subst. exists []; apply Z.
  - destruct (a_inst a) as [|[|k]]; [discriminate| |inversion E; subst; exists []; apply Z].
    destruct (_ && _); [discriminate|].
    destruct (a_req a), p; try discriminate; destruct (written _) as [vs|]; inversion E; subst; exists vs; reflexivity.
  - inversion E; subst. exists []; apply Z.
  - destruct (agetr a r) as [p|]; [|discriminate]. destruct (p_spans p); inversion E; subst; exists []; apply Z.
  - destruct (agetr a r) as [p|]; [|discriminate]. destruct (p_req p); [discriminate|]. destruct (_ || _); inversion E; subst; exists []; apply Z.
  - destruct (agetr a r) as [p|]; [|discriminate]. destruct (nth_error _ _); inversion E; subst; exists []; apply Z.
  - destruct (agetr a r) as [p|]; [|discriminate]. destruct (nth_error _ _); inversion E; subst; exists []; apply Z.
  - destruct (agetr a r) as [p|]; [|discriminate]. destruct (p_spans p); [discriminate|]. destruct (n <? 0); [discriminate|].
    destruct (p_req p); [inversion E; subst; exists []; apply Z|]. destruct (_ <? n); inversion E; subst; exists []; apply Z.
  - destruct (agetr a r) as [q|]; [|discriminate]. destruct (nth_error _ _); [|discriminate].
    destruct (remove_nth _ _); [|inversion E; subst; exists []; apply Z].
    destruct (match p_req q with Some _ => _ | None => _ end); inversion E; subst; exists []; apply Z.
  - destruct (arecycle c a) as [a1|] eqn:Er; [|discriminate]. inversion E; subst. destruct (recycle_same _ _ _ Er) as (P1 & _).
    exists []. rewrite P1. apply Z.
  - inversion E; subst. exists []; apply Z.
  - destruct (agetr a r); inversion E; subst. exists []; apply Z.
Qed.

Lemma arun_stream c ops : forall a a' xs, arun c a ops = Some (a', xs) -> exists vs, a_stream a' = a_stream a ++ vs.
Proof.
  induction ops as [|o ops IH]; intros a a' xs E; cbn [arun] in E.
  - inversion E; subst. exists []. rewrite app_nil_r. reflexivity.
  - destruct (astep c a o) as [[a1 x]|] eqn:E1; [|discriminate]. destruct (arun c a1 ops) as [[a2 ys]|] eqn:E2; [|discriminate].
    inversion E; subst. destruct (astep_stream _ _ _ _ _ E1) as [v1 V1]. destruct (IH _ _ _ E2) as [v2 V2].
    exists (v1 ++ v2). rewrite V2, V1, app_assoc. reflexivity.
Qed.

Lemma slice_prefix (l vs : list A) p n : 0 <= p -> 0 <= n -> p + n <= len l -> slice (l ++ vs) p n = slice l p n.
Proof.
  intros Hp Hn H. unfold slice. rewrite skipn_app, firstn_app.
  replace (Z.to_nat n - length (skipn (Z.to_nat p) l))%nat with 0%nat by (rewrite skipn_length; unfold len in H; lia).
  cbn [firstn]. rewrite app_nil_r. reflexivity.
Qed.
Lemma len_slice (l : list A) p n : 0 <= p -> 0 <= n -> p + n <= len l -> len (slice l p n) = n.
Proof. intros. unfold slice, len in *. rewrite firstn_length, skipn_length. lia. Qed.
Lemma slice_split (l : list A) p n1 n2 : 0 <= p -> 0 <= n1 -> 0 <= n2 -> slice l p (n1 + n2) = slice l p n1 ++ slice l (p + n1) n2.
Proof.
  intros. unfold slice.
  replace (Z.to_nat (n1 + n2)) with (Z.to_nat n1 + Z.to_nat n2)%nat by lia.
  replace (Z.to_nat (p + n1)) with (Z.to_nat n1 + Z.to_nat p)%nat by lia.
  set (q := skipn (Z.to_nat p) l).
  assert (E : skipn (Z.to_nat n1 + Z.to_nat p) l = skipn (Z.to_nat n1) q).
  { unfold q. generalize (Z.to_nat n1) as k. generalize (Z.to_nat p) as j. clear. intros j. revert l. induction j as [|j IH]; intros l k.
    - rewrite Nat.add_0_r. reflexivity.
    - destruct l as [|x l]; [rewrite !skipn_nil; reflexivity|]. rewrite Nat.add_succ_r. cbn [skipn]. apply IH. }
  rewrite E. clearbody q. clear E. generalize (Z.to_nat n1) as k. generalize (Z.to_nat n2) as j. clear. intros j k. revert q. induction k as [|k IH]; intros [|x q]; cbn; try reflexivity.
  - destruct j; reflexivity.
  - rewrite IH. reflexivity.
Qed.

(** *** Readers *)
Lemma agetr_asetr a i j x : agetr (asetr a i x) j = if Nat.eqb i j then (match nth_error (a_readers a) i with Some _ => x | None => None end) else agetr a j.
Proof.
  unfold agetr, asetr; cbn [a_readers]. destruct (Nat.eqb_spec i j) as [->|Hn].
  - destruct (nth_error (a_readers a) j) eqn:E.
    + rewrite (nth_upd_same _ _ _ _ E). destruct x; reflexivity.
    + assert (E2 : nth_error (upd (a_readers a) j x) j = None) by (apply nth_error_None; rewrite length_upd; apply nth_error_None; exact E).
      rewrite E2. reflexivity.
  - rewrite nth_upd_other by exact Hn. reflexivity.
Qed.
Lemma agetr_asetr_same a i x r : agetr a i = Some r -> agetr (asetr a i x) i = x.
Proof. intros H. rewrite agetr_asetr, Nat.eqb_refl. unfold agetr in H. destruct (nth_error (a_readers a) i); [reflexivity|discriminate]. Qed.

Lemma agetr_ext a a' i : a_readers a' = a_readers a -> agetr a' i = agetr a i.
Proof. unfold agetr. intros ->. reflexivity. Qed.

(** A step of reader [i]'s round other than its last release does not move it; nobody else moves it. *)
Lemma astep_reader c a o a' x i r r' : (forall l, In l (p_spans r) -> 0 <= l) -> astep c a o = Some (a', x) -> agetr a i = Some r -> agetr a' i = Some r' ->
  (forall f, p_first r = Some f -> 0 <= f) -> (forall n, p_req r = Some n -> 0 <= n) -> p_pos r <= p_pos r'.
Proof.
  intros _ E G G' Hf Hq. 
  assert (Same : a_readers a' = a_readers a -> p_pos r <= p_pos r').
  { intros S. rewrite (agetr_ext _ _ _ S), G in G'. inversion G'; subst. lia. }
  assert (Upd : forall j y r0, agetr a j = Some r0 -> a' = asetr a j y -> (forall z, y = Some z -> r0 = r -> p_pos r <= p_pos z) -> p_pos r <= p_pos r').
  { intros j y r0 Gj -> Hy. rewrite agetr_asetr in G'. destruct (Nat.eqb_spec j i) as [->|Hn].
    - destruct (nth_error (a_readers a) i); [|discriminate]. apply Hy; [exact G'|congruence].
    - rewrite G in G'. inversion G'; subst. lia. }
  destruct o; cbn [astep] in E.
  - destruct (Nat.eqb (a_inst a) 0); inversion E; subst. apply Same; reflexivity.
  - destruct (negb _ || _ || _); [discriminate|]. destruct (n =? 0); [inversion E; subst; apply Same; reflexivity|].
    destruct (apressure c a) as [a1|] eqn:Ep; [|discriminate]. destruct (pressure_same _ _ _ Ep) as (_ & _ & _ & _ & _ & P).
    destruct (free c a1 <? n); inversion E; subst; apply Same; exact P.
  - destruct (_ && _ && _); inversion E; subst. apply Same; reflexivity.
  - destruct (Nat.eqb _ _); inversion E; subst. apply Same; reflexivity.
  - destruct (_ || _ || _); inversion E; subst. apply Same; reflexivity.
  - destruct (a_inst a) as [|[|k]]; [discriminate| |inversion E; subst; apply Same; reflexivity].
    destruct (_ && _); [discriminate|].
    destruct (a_req a), p; try discriminate; destruct (written _) as [vs|]; inversion E; subst; apply Same; reflexivity.
  - inversion E; subst. unfold agetr in G, G'. cbn [a_readers] in G'. destruct (nth_error (a_readers a) i) as [[y|]|] eqn:En; try discriminate.
    rewrite nth_error_app1 in G' by (apply nth_error_Some; congruence). rewrite En in G'. inversion G; inversion G'; subst. lia.
  - destruct (agetr a r0) as [p|] eqn:Gj; [|discriminate]. destruct (p_spans p); inversion E; subst.
    eapply Upd; [exact Gj|reflexivity|]. intros y Hy; discriminate.
  - destruct (agetr a r0) as [p|] eqn:Gj; [|discriminate]. destruct (p_req p); [discriminate|]. destruct (_ || _); inversion E; subst.
    eapply Upd; [exact Gj|reflexivity|]. intros y Hy ->; inversion Hy; subst; cbn; lia.
  - destruct (agetr a r0) as [p|] eqn:Gj; [|discriminate]. destruct (nth_error _ _); inversion E; subst.
    eapply Upd; [exact Gj|reflexivity|]. intros y Hy ->; inversion Hy; subst; cbn; lia.
  - destruct (agetr a r0) as [p|] eqn:Gj; [|discriminate]. destruct (nth_error _ _); inversion E; subst. apply Same; reflexivity.
  - destruct (agetr a r0) as [p|] eqn:Gj; [|discriminate]. destruct (p_spans p); [discriminate|]. destruct (n <? 0); [discriminate|].
    destruct (p_req p); [inversion E; subst; apply Same; reflexivity|]. destruct (_ <? n); inversion E; subst; [apply Same; reflexivity|].
    eapply Upd; [exact Gj|reflexivity|]. intros y Hy ->; inversion Hy; subst; cbn; lia.
  - destruct (agetr a r0) as [q|] eqn:Gj; [|discriminate]. destruct (nth_error _ _); [|discriminate].
    destruct (remove_nth _ _).
    + destruct (p_req q) as [n|] eqn:Eq.
      * assert (E' : Some (asetr a r0 (Some {| p_pos := p_pos q + n; p_first := None; p_req := None; p_done := n; p_spans := [] |}), @OUnit A) = Some (a', x)) by (destruct p; exact E).
        inversion E'; subst. eapply Upd; [exact Gj|reflexivity|]. intros y Hy ->; inversion Hy; subst; cbn. specialize (Hq n Eq). lia.
      * destruct p; [discriminate| |].
        -- destruct (p_first q) as [f|] eqn:Ef; [|discriminate]. inversion E; subst. eapply Upd; [exact Gj|reflexivity|].
           intros y Hy ->; inversion Hy; subst; cbn. specialize (Hf f Ef). lia.
        -- inversion E; subst. eapply Upd; [exact Gj|reflexivity|]. intros y Hy ->; inversion Hy; subst; cbn. lia.
    + inversion E; subst. eapply Upd; [exact Gj|reflexivity|]. intros y Hy ->; inversion Hy; subst; cbn; lia.
  - destruct (arecycle c a) as [a1|] eqn:Er; [|discriminate]. inversion E; subst. destruct (recycle_same _ _ _ Er) as (_ & _ & _ & _ & _ & P).
    apply Same; exact P.
  - inversion E; subst. apply Same; reflexivity.
  - destruct (agetr a r0); inversion E; subst. apply Same; reflexivity.
Qed.

(** Elements that reader [i] consumes in a history, in order (ghost of the specification). *)
Fixpoint consumedBy c (i : nat) a (ops : list (op A)) : list A :=
  match ops with
  | [] => []
  | o :: r => match astep c a o with
              | None => []
              | Some (a1, _) =>
                  (match agetr a i, agetr a1 i with Some q, Some q1 => slice (a_stream a1) (p_pos q) (p_pos q1 - p_pos q) | _, _ => [] end)
                  ++ consumedBy c i a1 r
              end
  end.

Lemma agetr_stable c a o a' x i q : astep c a o = Some (a', x) -> agetr a i = None -> (i < length (a_readers a))%nat -> agetr a' i = Some q -> False.
Proof.
  intros E G Hl G'.
  assert (Same : a_readers a' = a_readers a -> False) by (intros S; rewrite (agetr_ext _ _ _ S), G in G'; discriminate).
  assert (Upd : forall j y r0, agetr a j = Some r0 -> a' = asetr a j y -> False).
  { intros j y r0 Gj ->. rewrite agetr_asetr in G'. destruct (Nat.eqb_spec j i) as [->|Hn]; [congruence|congruence]. }
  destruct o; cbn [astep] in E.
  - destruct (Nat.eqb (a_inst a) 0); inversion E; subst. apply Same; reflexivity.
  - destruct (negb _ || _ || _); [discriminate|]. destruct (n =? 0); [inversion E; subst; apply Same; reflexivity|].
    destruct (apressure c a) as [a1|] eqn:Ep; [|discriminate]. destruct (pressure_same _ _ _ Ep) as (_ & _ & _ & _ & _ & P).
    destruct (free c a1 <? n); inversion E; subst; apply Same; exact P.
  - destruct (_ && _ && _); inversion E; subst. apply Same; reflexivity.
  - destruct (Nat.eqb _ _); inversion E; subst. apply Same; reflexivity.
  - destruct (_ || _ || _); inversion E; subst. apply Same; reflexivity.
  - destruct (a_inst a) as [|[|k]]; [discriminate| |inversion E; subst; apply Same; reflexivity].
    destruct (_ && _); [discriminate|].
    destruct (a_req a), p; try discriminate; destruct (written _) as [vs|]; inversion E; subst; apply Same; reflexivity.
  - inversion E; subst. unfold agetr in G, G'. cbn [a_readers] in G'. rewrite nth_error_app1 in G' by exact Hl.
    rewrite G in G'. discriminate.
  - destruct (agetr a r) as [p|] eqn:Gj; [|discriminate]. destruct (p_spans p); inversion E; subst. eapply Upd; [exact Gj|reflexivity].
  - destruct (agetr a r) as [p|] eqn:Gj; [|discriminate]. destruct (p_req p); [discriminate|]. destruct (_ || _); inversion E; subst.
    eapply Upd; [exact Gj|reflexivity].
  - destruct (agetr a r) as [p|] eqn:Gj; [|discriminate]. destruct (nth_error _ _); inversion E; subst. eapply Upd; [exact Gj|reflexivity].
  - destruct (agetr a r) as [p|] eqn:Gj; [|discriminate]. destruct (nth_error _ _); inversion E; subst. apply Same; reflexivity.
  - destruct (agetr a r) as [p|] eqn:Gj; [|discriminate]. destruct (p_spans p); [discriminate|]. destruct (n <? 0); [discriminate|].
    destruct (p_req p); [inversion E; subst; apply Same; reflexivity|]. destruct (_ <? n); inversion E; subst; [apply Same; reflexivity|].
    eapply Upd; [exact Gj|reflexivity].
  - destruct (agetr a r) as [p0|] eqn:Gj; [|discriminate]. destruct (nth_error _ _); [|discriminate].
    destruct (remove_nth _ _).
    + destruct (match p_req p0 with Some _ => _ | None => _ end); inversion E; subst. eapply Upd; [exact Gj|reflexivity].
    + inversion E; subst. eapply Upd; [exact Gj|reflexivity].
  - destruct (arecycle c a) as [a1|] eqn:Er; [|discriminate]. inversion E; subst. destruct (recycle_same _ _ _ Er) as (_ & _ & _ & _ & _ & P).
    apply Same; exact P.
  - inversion E; subst. apply Same; reflexivity.
  - destruct (agetr a r); inversion E; subst. apply Same; reflexivity.
Qed.

Lemma astep_length c a o a' x : astep c a o = Some (a', x) -> (length (a_readers a) <= length (a_readers a'))%nat.
Proof.
  intros E. destruct o; cbn [astep] in E.
  - destruct (Nat.eqb (a_inst a) 0); inversion E; subst. reflexivity.
  - destruct (negb _ || _ || _); [discriminate|]. destruct (n =? 0); [inversion E; subst; reflexivity|].
    destruct (apressure c a) as [a1|] eqn:Ep; [|discriminate]. destruct (pressure_same _ _ _ Ep) as (_ & _ & _ & _ & _ & P).
    destruct (free c a1 <? n); inversion E; subst; cbn; rewrite P; reflexivity.
  - destruct (_ && _ && _); inversion E; subst. reflexivity.
  - destruct (Nat.eqb _ _); inversion E; subst. reflexivity.
  - destruct (_ || _ || _); inversion E; subst. reflexivity.
  - destruct (a_inst a) as [|[|k]]; [discriminate| |inversion E; subst; reflexivity].
    destruct (_ && _); [discriminate|].
    destruct (a_req a), p; try discriminate; destruct (written _) as [vs|]; inversion E; subst; reflexivity.
  - inversion E; subst. cbn. rewrite app_length. lia.
  - destruct (agetr a r) as [p|]; [|discriminate]. destruct (p_spans p); inversion E; subst. cbn; rewrite length_upd; reflexivity.
  - destruct (agetr a r) as [p|]; [|discriminate]. destruct (p_req p); [discriminate|]. destruct (_ || _); inversion E; subst. cbn; rewrite length_upd; reflexivity.
  - destruct (agetr a r) as [p|]; [|discriminate]. destruct (nth_error _ _); inversion E; subst. cbn; rewrite length_upd; reflexivity.
  - destruct (agetr a r) as [p|]; [|discriminate]. destruct (nth_error _ _); inversion E; subst. reflexivity.
  - destruct (agetr a r) as [p|]; [|discriminate]. destruct (p_spans p); [discriminate|]. destruct (n <? 0); [discriminate|].
    destruct (p_req p); [inversion E; subst; reflexivity|]. destruct (_ <? n); inversion E; subst; [reflexivity|]. cbn; rewrite length_upd; reflexivity.
  - destruct (agetr a r) as [p0|]; [|discriminate]. destruct (nth_error _ _); [|discriminate].
    destruct (remove_nth _ _).
    + destruct (match p_req p0 with Some _ => _ | None => _ end); inversion E; subst. cbn; rewrite length_upd; reflexivity.
    + inversion E; subst. cbn; rewrite length_upd; reflexivity.
  - destruct (arecycle c a) as [a1|] eqn:Er; [|discriminate]. inversion E; subst. destruct (recycle_same _ _ _ Er) as (_ & _ & _ & _ & _ & P).
    rewrite P. reflexivity.
  - inversion E; subst. reflexivity.
  - destruct (agetr a r); inversion E; subst. reflexivity.
Qed.

Lemma agetr_lt a i r : agetr a i = Some r -> (i < length (a_readers a))%nat.
Proof. unfold agetr. destruct (nth_error (a_readers a) i) eqn:E; [|discriminate]. intros _. apply nth_error_Some. congruence. Qed.

Lemma Rel_reader c s a i p : Rel c s a -> agetr a i = Some p -> 0 <= p_pos p <= len (a_stream a) /\
  (forall l, In l (p_spans p) -> 0 <= l) /\ (forall f, p_first p = Some f -> 0 <= f /\ p_pos p + f <= len (a_stream a)) /\
  (forall n, p_req p = Some n -> 0 <= n /\ p_pos p + n <= len (a_stream a)).
Proof.
  intros H G. destruct (agetr_rel _ _ _ _ _ H G) as (r & _ & Hr). destruct (R_wm _ _ _ H) as [_ Hw].
  destruct Hr as [_ _ _ _ _ _ Hp Hf Hl Hq]. split; [lia|]. split; [|split].
  - intros l Hin. destruct (Hl l Hin) as (f & _ & L). lia.
  - intros f Ef. rewrite Ef in Hf. exact Hf.
  - exact Hq.
Qed.

Lemma consumed_stream c ops : forall s a a' xs i q q', Rel c s a -> arun c a ops = Some (a', xs) ->
  agetr a i = Some q -> agetr a' i = Some q' ->
  p_pos q <= p_pos q' /\ consumedBy c i a ops = slice (a_stream a') (p_pos q) (p_pos q' - p_pos q).
Proof.
  induction ops as [|o ops IH]; intros s a a' xs i q q' H E G G'; cbn [arun consumedBy] in *.
  - inversion E; subst. rewrite G in G'. inversion G'; subst. split; [lia|]. rewrite Z.sub_diag. reflexivity.
  - destruct (astep c a o) as [[a1 x]|] eqn:E1; [|discriminate]. destruct (arun c a1 ops) as [[a2 ys]|] eqn:E2; [|discriminate].
    inversion E; subst a2 xs. rewrite G. destruct (simulation _ _ _ _ _ _ H E1) as (s1 & _ & H1).
    destruct (agetr a1 i) as [q1|] eqn:G1.
    + destruct (IH s1 a1 a' ys i q1 q' H1 E2 G1 G') as [L2 C2].
      destruct (Rel_reader _ _ _ _ _ H G) as (P1 & P2 & P3 & P4).
      assert (L1 : p_pos q <= p_pos q1).
      { eapply astep_reader; [exact P2|exact E1|exact G|exact G1| |]; intros k Hk; [apply (P3 k Hk)|apply (P4 k Hk)]. }
      split; [lia|]. rewrite C2.
      destruct (arun_stream _ _ _ _ _ E2) as [vs V]. destruct (Rel_reader _ _ _ _ _ H1 G1) as (P1' & _).
      rewrite <- (slice_prefix (a_stream a1) vs (p_pos q)) by lia. rewrite <- V.
      replace (p_pos q' - p_pos q) with ((p_pos q1 - p_pos q) + (p_pos q' - p_pos q1)) by lia.
      rewrite slice_split by lia. f_equal. f_equal. lia.
    + exfalso. (* a dropped reader never returns *)
      assert (D : forall ops a1 a' ys, arun c a1 ops = Some (a', ys) -> agetr a1 i = None -> (i < length (a_readers a1))%nat -> agetr a' i = None).
      { clear. induction ops as [|o ops IH]; intros a1 a' ys E G Hl; cbn [arun] in E.
        - inversion E; subst. exact G.
        - destruct (astep c a1 o) as [[a2 x]|] eqn:E1; [|discriminate]. destruct (arun c a2 ops) as [[a3 zs]|] eqn:E2; [|discriminate].
          inversion E; subst. destruct (agetr a2 i) eqn:G2.
          + exfalso. eapply agetr_stable; eassumption.
          + eapply IH; [exact E2|exact G2|]. pose proof (astep_length _ _ _ _ _ E1). lia. }
      pose proof (astep_length _ _ _ _ _ E1). pose proof (agetr_lt _ _ _ G).
      rewrite (D _ _ _ _ E2 G1) in G' by lia. discriminate.
Qed.

(** *** Reads *)
Lemma read_is_stream c m ops s a i k s' l : 0 < cap c <= lim -> history c m ops s a ->
  step c s (ReadRSpan i k) = Some (s', OElems l) ->
  exists q n, agetr a i = Some q /\ nth_error (p_spans q) k = Some n /\ l = slice (a_stream a) (p_pos q) n /\ len l = n /\ p_pos q + n <= len (a_stream a) /\
  exists av d, step c s (QReader i) = Some (s, OR (p_pos q) av d).
Proof.
  intros Hc Hh E. pose proof (history_rel _ _ _ _ _ Hc Hh) as H.
  cbn [step] in E. unfold getr in E. destruct (nth_error (readers s) i) as [[r|]|] eqn:En; try discriminate.
  assert (exists q, agetr a i = Some q /\ rrel (cap c) (len (a_stream a)) (a_wm a) r q) as (q & G & Hr).
  { unfold agetr. pose proof (R_rd _ _ _ H) as F. clear - F En. revert i En. induction F as [|x y l1 l2 Hxy F IH]; intros [|i] En; cbn in *; try discriminate.
    - inversion En; subst. destruct y as [y|]; cbn in Hxy; [exists y; auto|contradiction].
    - apply IH, En. }
  destruct (nth_error (r_spans r) k) as [[idx n]|] eqn:Ek; [|discriminate].
  rewrite (rr_spans _ _ _ _ _ Hr), nth_error_map in Ek. destruct (nth_error (p_spans q) k) as [n'|] eqn:Ekq; [|discriminate].
  cbn in Ek. inversion Ek; subst idx n'.
  destruct (rr_l _ _ _ _ _ Hr n (nth_error_In _ _ Ekq)) as (f & Ef & Hlf). pose proof (rr_f _ _ _ _ _ Hr) as F. rewrite Ef in F.
  rewrite (read_rel c s a r q n H Hr (in_positions _ _ _ G)) in E by lia. inversion E; subst s' l.
  destruct (Rel_reader _ _ _ _ _ H G) as (P1 & _).
  exists q, n. split; [exact G|]. split; [exact Ekq|]. split; [reflexivity|]. split; [apply len_slice; lia|]. split; [lia|].
  cbn [step]. unfold getr. rewrite En, (rr_cached _ _ _ _ _ Hr). eauto.
Qed.

Lemma read_stream_later c m ops s a ops2 s2 a2 i k s' l : 0 < cap c <= lim -> history c m ops s a -> history c m (ops ++ ops2) s2 a2 ->
  step c s (ReadRSpan i k) = Some (s', OElems l) ->
  exists p av d, step c s (QReader i) = Some (s, OR p av d) /\ l = slice (a_stream a2) p (len l).
Proof.
  intros Hc Hh Hh2 E. pose proof (history_rel _ _ _ _ _ Hc Hh) as H.
  destruct (read_is_stream _ _ _ _ _ _ _ _ _ Hc Hh E) as (q & n & G & Hn & El & Ell & Hle & av & d & Hq).
  exists (p_pos q), av, d. split; [exact Hq|]. rewrite Ell.
  destruct Hh as (xs & E1 & _). destruct Hh2 as (ys & E2 & _). rewrite arun_app, E1 in E2.
  destruct (arun c a ops2) as [[a3 zs]|] eqn:E3; [|discriminate]. inversion E2; subst a3.
  destruct (Rel_reader _ _ _ _ _ H G) as (P1 & _).
  destruct (arun_stream _ _ _ _ _ E3) as [vs V]. rewrite V, slice_prefix; [exact El|lia|pose proof (len_nn l); lia|exact Hle].
Qed.

(** Operations of the writer side. *)
Definition writerOp (o : op A) : Prop :=
  match o with NewWriter | Reserve _ | WriteSpan _ _ | CopySpan | Publish _ | Release _ | HouseKeep | QWriter => True | _ => False end.

Lemma writer_readers c a o a' x : writerOp o -> astep c a o = Some (a', x) -> a_readers a' = a_readers a.
Proof.
  intros W E. destruct o; cbn [writerOp] in W; try contradiction; cbn [astep] in E.
  - destruct (Nat.eqb (a_inst a) 0); inversion E; subst. reflexivity.
  - destruct (negb _ || _ || _); [discriminate|]. destruct (n =? 0); [inversion E; subst; reflexivity|].
    destruct (apressure c a) as [a1|] eqn:Ep; [|discriminate]. destruct (pressure_same _ _ _ Ep) as (_ & _ & _ & _ & _ & P).
    destruct (free c a1 <? n); inversion E; subst; exact P.
  - destruct (_ && _ && _); inversion E; subst. reflexivity.
  - destruct (Nat.eqb _ _); inversion E; subst. reflexivity.
  - destruct (_ || _ || _); inversion E; subst. reflexivity.
  - destruct (a_inst a) as [|[|k]]; [discriminate| |inversion E; subst; reflexivity].
    destruct (_ && _); [discriminate|].
    destruct (a_req a), p; try discriminate; destruct (written _) as [vs|]; inversion E; subst; reflexivity.
  - destruct (arecycle c a) as [a1|] eqn:Er; [|discriminate]. inversion E; subst. apply (recycle_same _ _ _ Er).
  - inversion E; subst. reflexivity.
Qed.

Lemma writer_run_readers c ops : forall a a' xs, Forall writerOp ops -> arun c a ops = Some (a', xs) -> a_readers a' = a_readers a.
Proof.
  induction ops as [|o ops IH]; intros a a' xs F E; cbn [arun] in E; [inversion E; reflexivity|].
  inversion F; subst. destruct (astep c a o) as [[a1 x]|] eqn:E1; [|discriminate]. destruct (arun c a1 ops) as [[a2 ys]|] eqn:E2; [|discriminate].
  inversion E; subst. rewrite (IH _ _ _ H2 E2). eapply writer_readers; eassumption.
Qed.

Lemma read_astep c m ops s a i k n q : 0 < cap c <= lim -> history c m ops s a -> agetr a i = Some q -> nth_error (p_spans q) k = Some n ->
  step c s (ReadRSpan i k) = Some (s, OElems (slice (a_stream a) (p_pos q) n)).
Proof.
  intros Hc Hh G Hn. pose proof (history_rel _ _ _ _ _ Hc Hh) as H.
  assert (E : astep c a (ReadRSpan i k) = Some (a, OElems (slice (a_stream a) (p_pos q) n))) by (cbn [astep]; rewrite G, Hn; reflexivity).
  destruct (simulation _ _ _ _ _ _ H E) as (s' & S & _). rewrite S. f_equal. f_equal.
  cbn [step] in S. destruct (getr s i) as [r|]; [|discriminate]. destruct (nth_error (r_spans r) k) as [[]|]; [|discriminate].
  destruct (readSpan _ _ _ _); inversion S; reflexivity.
Qed.

(** C02: whatever the writer side does, a live span keeps showing the same elements. *)
Lemma held_span_stable c m ops s a wops s2 a2 i k s' l : 0 < cap c <= lim ->
  history c m ops s a -> Forall writerOp wops -> history c m (ops ++ wops) s2 a2 ->
  step c s (ReadRSpan i k) = Some (s', OElems l) -> step c s2 (ReadRSpan i k) = Some (s2, OElems l).
Proof.
  intros Hc Hh F Hh2 E. pose proof (history_rel _ _ _ _ _ Hc Hh) as H.
  destruct (read_is_stream _ _ _ _ _ _ _ _ _ Hc Hh E) as (q & n & G & Hn & El & Ell & Hle & _).
  assert (E3 : exists zs, arun c a wops = Some (a2, zs)).
  { destruct Hh as (xs & E1 & _). destruct Hh2 as (ys & E2 & _). rewrite arun_app, E1 in E2.
    destruct (arun c a wops) as [[a3 zs]|]; [|discriminate]. inversion E2; subst. eauto. }
  destruct E3 as [zs E3]. destruct (arun_stream _ _ _ _ _ E3) as [vs V].
  destruct (Rel_reader _ _ _ _ _ H G) as (P1 & _).
  assert (G2 : agetr a2 i = Some q) by (rewrite (agetr_ext a); [exact G|eapply writer_run_readers; eassumption]).
  rewrite (read_astep _ _ _ _ _ _ _ _ _ Hc Hh2 G2 Hn). rewrite V, slice_prefix, El; [reflexivity|lia|pose proof (len_nn l); lia|exact Hle].
Qed.

(** *** Counts *)
Lemma writer_counts c m ops s a : 0 < cap c <= lim -> history c m ops s a -> forall p, slowest (positions a) = Some p ->
  step c s QWriter = Some (s, OW (len (a_stream a)) (cap c - (total a - p))) /\ 0 <= cap c - (total a - p) <= cap c.
Proof.
  intros Hc Hh p Es. pose proof (history_rel _ _ _ _ _ Hc Hh) as H. cbn [step].
  rewrite (R_pub _ _ _ H), (remaining_rel _ _ _ H). unfold free. rewrite Es. split; [reflexivity|].
  destruct (slowest_spec _ _ Es) as [S1 _]. pose proof (R_room _ _ _ H _ S1). pose proof (positions_range _ _ _ _ H S1). pose proof (total_nn a). lia.
Qed.

Lemma reserve_exact c m ops s a n : 0 < cap c <= lim -> history c m ops s a -> clr c = None -> a_inst a = 0%nat -> 1 <= n <= cap c ->
  exists s', step c s (Reserve n) = Some (s', OLen (if n <=? free c a then n else 0)).
Proof.
  intros Hc Hh Hcl Hi Hn. pose proof (history_rel _ _ _ _ _ Hc Hh) as H.
  assert (E : exists a', astep c a (Reserve n) = Some (a', OLen (if n <=? free c a then n else 0))).
  { cbn [astep]. rewrite Hi. cbn [Nat.eqb negb orb]. replace (n <? 0) with false by lia. replace (cap c <? n) with false by lia.
    replace (n =? 0) with false by lia. cbn [orb]. unfold apressure. rewrite Hcl.
    destruct (Z.ltb_spec (free c a) n); [replace (n <=? free c a) with false by lia|replace (n <=? free c a) with true by lia]; eauto. }
  destruct E as [a' E]. destruct (simulation _ _ _ _ _ _ H E) as (s' & S & _). eauto.
Qed.

Lemma reader_counts c m ops s a i q : 0 < cap c <= lim -> history c m ops s a -> agetr a i = Some q ->
  step c s (QReader i) = Some (s, OR (p_pos q) (len (a_stream a) - p_pos q) (p_done q)) /\ 0 <= len (a_stream a) - p_pos q <= cap c.
Proof.
  intros Hc Hh G. pose proof (history_rel _ _ _ _ _ Hc Hh) as H. destruct (agetr_rel _ _ _ _ _ H G) as (r & Er & Hr).
  destruct (ravail_rel c s a r q H Hr (in_positions _ _ _ G)) as [E1 E2]. cbn [step]. rewrite Er, E1, (rr_cached _ _ _ _ _ Hr), (rr_done _ _ _ _ _ Hr).
  split; [reflexivity|exact E2].
Qed.

(** *** Mirror *)
Lemma mirror c m ops s a : 0 < cap c <= lim -> history c m ops s a -> forall q v p, In p (positions a) -> p <= Z.of_nat q ->
  nth_error (a_stream a) q = Some v ->
  mem s (phys c (Z.of_nat q mod cap c)) = v /\ mem s (phys c (Z.of_nat q mod cap c + cap c)) = v.
Proof. intros Hc Hh q v p Hp L Hq. apply (R_mem _ _ _ (history_rel _ _ _ _ _ Hc Hh) q v Hq). eauto. Qed.

(** *** Publication *)
Fixpoint writesFrom (i : Z) (vs : list A) : list (op A) :=
  match vs with [] => [] | v :: r => WriteSpan i v :: writesFrom (i + 1) r end.

Lemma writes_run c vs : forall a pre, a_inst a <> 0%nat -> a_pend a = map Some pre ++ repeat None (length vs) ->
  arun c a (writesFrom (len pre) vs) = Some (aset a (a_stream a) (map Some (pre ++ vs)) (a_req a) (a_inst a) (a_fresh a), repeat OUnit (length vs)).
Proof.
  induction vs as [|v vs IH]; intros a pre Hi Hp; cbn [writesFrom arun].
  - cbn [length repeat] in *. rewrite app_nil_r in *. rewrite <- Hp. destruct a; reflexivity.
  - cbn [astep]. rewrite Hp.
    assert (L : len (map Some pre ++ repeat None (length (v :: vs))) = len pre + Z.of_nat (S (length vs))).
    { unfold len. rewrite app_length, map_length, repeat_length. cbn. lia. }
    rewrite L. pose proof (len_nn pre).
    replace ((0 <=? len pre) && (len pre <? len pre + Z.of_nat (S (length vs))) && negb (Nat.eqb (a_inst a) 0)) with true by lia.
    set (a1 := aset a _ _ _ _ _).
    assert (U : upd (map Some pre ++ repeat None (length (v :: vs))) (Z.to_nat (len pre)) (Some v) = map Some (pre ++ [v]) ++ repeat None (length vs)).
    { unfold len. rewrite Nat2Z.id. clear. induction pre as [|x pre IH]; cbn; [reflexivity|]. f_equal. exact IH. }
    assert (L2 : len pre + 1 = len (pre ++ [v])) by (unfold len; rewrite app_length; cbn; lia). rewrite L2.
    rewrite (IH a1 (pre ++ [v])).
    + unfold a1, aset; cbn. rewrite <- app_assoc. reflexivity.
    + exact Hi.
    + unfold a1. cbn. exact U.
Qed.

Fixpoint sumk (ks : list Z) : Z := match ks with [] => 0 | k :: r => k + sumk r end.

Lemma publishes_run c ks : forall a q, a_inst a <> 0%nat -> a_req a = q -> Forall (fun k => 0 <= k) ks ->
  (match q with Some x => x | None => 0 end) + sumk ks <= len (a_pend a) ->
  arun c a (map (@Publish A) ks) = Some (aset a (a_stream a) (a_pend a)
     (match ks with [] => q | _ => Some ((match q with Some x => x | None => 0 end) + sumk ks) end) (a_inst a) (a_fresh a), repeat OUnit (length ks)).
Proof.
  induction ks as [|k ks IH]; intros a q Hi Hq F Hs; cbn [map arun].
  - rewrite <- Hq. destruct a; reflexivity.
  - inversion F; subst. cbn [astep sumk] in *.
    set (al := match a_req a with Some x => x | None => 0 end) in *.
    assert (0 <= sumk ks) by (clear - H2; induction H2; cbn; lia).
    replace (Nat.eqb (a_inst a) 0 || (k <? 0) || (len (a_pend a) - al <? k)) with false by lia.
    set (a1 := aset a _ _ _ _ _). rewrite (IH a1 (Some (al + k))); [|exact Hi|reflexivity|exact H2|unfold a1; cbn; lia].
    unfold a1, aset; cbn. f_equal. f_equal. f_equal. destruct ks; cbn; f_equal; lia.
Qed.

Lemma copies_run c j : forall a, a_inst a <> 0%nat ->
  arun c a (repeat CopySpan j) = Some (aset a (a_stream a) (a_pend a) (a_req a) (j + a_inst a) (a_fresh a), repeat OUnit j).
Proof.
  induction j as [|j IH]; intros a Hi; cbn [repeat arun].
  - destruct a; reflexivity.
  - cbn [astep]. destruct (Nat.eqb_spec (a_inst a) 0); [contradiction|]. rewrite IH by (cbn; lia). unfold aset; cbn. f_equal. f_equal. f_equal. lia.
Qed.

Lemma drops_run c j p : forall a, a_inst a = S j ->
  arun c a (repeat (Release p) j) = Some (aset a (a_stream a) (a_pend a) (a_req a) 1 (a_fresh a), repeat OUnit j).
Proof.
  induction j as [|j IH]; intros a Hi; cbn [repeat arun].
  - destruct a; cbn in *; subst; reflexivity.
  - cbn [astep]. rewrite Hi. rewrite IH by reflexivity. reflexivity.
Qed.

Lemma written_map (vs : list A) k : written (firstn k (map Some vs)) = Some (firstn k vs).
Proof. revert k; induction vs as [|v vs IH]; intros [|k]; cbn; try reflexivity. rewrite IH. reflexivity. Qed.

(** One writer round: reserve [n], write all slots, publish in pieces, copy the span [j] times, destroy all copies. *)
Definition round (vs : list A) (ks : list Z) (j : nat) (p : policy) : list (op A) :=
  Reserve (len vs) :: writesFrom 0 vs ++ map (@Publish A) ks ++ repeat CopySpan j ++ repeat (Release p) j ++ [Release p].

Definition amount (n : Z) (ks : list Z) (p : policy) : option Z :=
  match ks, p with [], Terminate => None | [], ProcessAll => Some n | [], ProcessNone => Some 0 | _, _ => Some (sumk ks) end.

Lemma round_run c a vs ks j p k : clr c = None -> a_inst a = 0%nat -> a_pend a = [] -> 1 <= len vs <= cap c -> len vs <= free c a ->
  Forall (fun k => 0 <= k) ks -> sumk ks <= len vs -> amount (len vs) ks p = Some k ->
  exists xs, arun c a (round vs ks j p) = Some (aset a (a_stream a ++ firstn (Z.to_nat k) vs) [] (Some 0) 0 false, xs).
Proof.
  intros Hcl Hi Hpd Hn Hf F Hs Hk. unfold round. cbn [arun astep]. rewrite Hi. cbn [Nat.eqb negb orb].
  replace ((len vs <? 0) || (cap c <? len vs)) with false by lia. replace (len vs =? 0) with false by lia.
  unfold apressure. rewrite Hcl. replace (free c a <? len vs) with false by lia.
  set (a1 := aset a _ _ _ _ _).
  rewrite arun_app. change 0 with (len (@nil A)) at 1. rewrite (writes_run c vs a1 []); [|discriminate|unfold a1; cbn; f_equal; unfold len; lia].
  cbn [app]. set (a2 := aset a1 _ _ _ _ _).
  rewrite arun_app, (publishes_run c ks a2 None); [|discriminate|reflexivity|exact F|unfold a2, len in *; cbn; rewrite map_length; lia].
  set (a3 := aset a2 _ _ _ _ _).
  rewrite arun_app, copies_run by discriminate. set (a4 := aset a3 _ _ _ _ _).
  rewrite arun_app, drops_run by (unfold a4; cbn; lia). set (a5 := aset a4 _ _ _ _ _).
  cbn [arun].
  assert (E : exists x, astep c a5 (Release p) = Some (aset a (a_stream a ++ firstn (Z.to_nat k) vs) [] (Some 0) 0 false, x)).
  { cbn [astep]. unfold a5, a4, a3, a2, a1, aset; cbn [a_inst a_fresh a_stream a_pend a_req a_readers a_wm andb].
    unfold amount in Hk. destruct ks as [|k0 ks].
    - destruct p; inversion Hk; subst; rewrite ?written_map.
      + unfold len at 1 2. rewrite map_length. eauto.
      + eauto.
    - assert (k = sumk (k0 :: ks)) as -> by (destruct p; inversion Hk; reflexivity).
      rewrite written_map. destruct p; eauto. }
  destruct E as [x ->]. eauto.
Qed.

Lemma round_history c m ops s a vs ks j p k : 0 < cap c <= lim -> history c m ops s a ->
  clr c = None -> a_inst a = 0%nat -> 1 <= len vs <= cap c -> len vs <= free c a ->
  Forall (fun k => 0 <= k) ks -> sumk ks <= len vs -> amount (len vs) ks p = Some k ->
  exists s' a' xs, run c s (round vs ks j p) = Some (s', xs) /\ history c m (ops ++ round vs ks j p) s' a' /\
    a_stream a' = a_stream a ++ firstn (Z.to_nat k) vs /\ a_readers a' = a_readers a /\
    (positions a <> [] -> free c a' = free c a - k).
Proof.
  intros Hc Hh Hcl Hi Hn Hf F Hs Hk. pose proof (history_rel _ _ _ _ _ Hc Hh) as H.
  pose proof (R_dead _ _ _ H Hi) as Hpd.
  destruct (round_run c a vs ks j p k Hcl Hi Hpd Hn Hf F Hs Hk) as [xs E].
  destruct (history_extend _ _ _ _ _ _ _ _ Hc Hh E) as (s' & S & Hh').
  exists s', (aset a (a_stream a ++ firstn (Z.to_nat k) vs) [] (Some 0) 0 false), xs. split; [exact S|]. split; [exact Hh'|]. split; [reflexivity|]. split; [reflexivity|].
  intros Hne. unfold free, positions, total, aset; cbn [a_readers a_stream a_pend]. fold (positions a).
  assert (Kr : 0 <= k <= len vs).
  { unfold amount in Hk. assert (0 <= sumk ks) by (clear - F; induction F; cbn; lia). destruct ks; [destruct p; inversion Hk; subst; lia|]. inversion Hk; subst. cbn in *. lia. }
  destruct (slowest (positions a)) as [q|] eqn:Eq; [|apply slowest_none in Eq; contradiction].
  rewrite Hpd, len_app. unfold len in *. rewrite firstn_length. cbn. lia.
Qed.

(** *** Empty reservations *)
Definition writerView (s : ring A) : Z * Z * Z * (Z -> A) * list (option reader) := (pub s, res s, wmark s, mem s, readers s).

Lemma empty_reservation c m ops s a p s' s'' x y : 0 < cap c <= lim -> history c m ops s a -> a_inst a = 0%nat -> a_fresh a = false \/ a_stream a = [] -> p <> Terminate ->
  step c s (Reserve 0) = Some (s', x) -> step c s' (Release p) = Some (s'', y) ->
  x = OLen 0 /\ (forall i, mem s'' i = mem s i) /\ pub s'' = pub s /\ res s'' = res s /\ readers s'' = readers s /\
  step c s'' QWriter = Some (s'', OW (pub s) (remaining c s)).
Proof.
  intros Hc Hh Hi Hf Hp E1 E2. pose proof (history_rel _ _ _ _ _ Hc Hh) as H.
  pose proof (R_dead _ _ _ H Hi) as Hpd. pose proof (R_len _ _ _ H) as Hl. rewrite Hpd in Hl. change (len (@nil (option A))) with 0 in Hl.
  pose proof (R_inst _ _ _ H) as Hin. rewrite Hi in Hin.
  assert (Ho : w_offset (wr s) = pub s).
  { rewrite (R_off _ _ _ H), (R_pub _ _ _ H). destruct Hf as [-> | ->]; [reflexivity|]. unfold len; cbn. destruct (a_fresh a); reflexivity. }
  assert (Hr : res s = pub s).
  { rewrite (R_res _ _ _ H), (R_pub _ _ _ H). unfold total. rewrite Hpd. unfold len; cbn. lia. }
  cbn [step] in E1. unfold doReserve in E1. rewrite Hl, Hin in E1. cbn [Z.eqb negb andb] in E1. inversion E1; subst s' x; clear E1.
  cbn [step] in E2. unfold doRelease in E2. cbn [setw wr w_inst w_req w_len w_index w_offset mem] in E2.
  assert (Q : wsub 0 0 = 0) by reflexivity.
  assert (E3 : s'' = {| mem := (if mmap c then mem s else copyn c (copyn c (mem s) (w_index (wr s)) (w_index (wr s) + cap c) (Z.to_nat (Z.min (wsub (cap c) (w_index (wr s))) 0))) (cap c) 0 (Z.to_nat (0 - Z.min (wsub (cap c) (w_index (wr s))) 0)));
                        pub := w_offset (wr s) + 0; res := w_offset (wr s) + 0; readers := readers s; wmark := wmark s;
                        wr := {| w_req := Some 0; w_index := w_index (wr s); w_offset := w_offset (wr s) + 0; w_sidx := 0; w_len := 0; w_inst := 0%nat |} |}).
  { destruct p; [contradiction| |]; unfold doPublish in E2; cbn [w_req w_len] in E2; rewrite Q in E2; cbn [Z.ltb Z.compare orb] in E2; inversion E2; reflexivity. }
  subst s''. cbn [mem pub res readers step].
  assert (Hw : 0 <= wsub (cap c) (w_index (wr s))) by (unfold wsub; apply Z.mod_pos_bound; reflexivity).
  rewrite (Z.min_r (wsub (cap c) (w_index (wr s))) 0) by exact Hw. cbn [Z.to_nat copyn Z.sub Z.opp Z.add].
  split; [reflexivity|]. split; [intros i; destruct (mmap c); reflexivity|].
  rewrite Z.add_0_r. repeat split; try congruence.
  unfold remaining. cbn [res readers pub]. rewrite Hr, Ho. reflexivity.
Qed.

(** *** Reader rounds *)
Lemma consume_too_much c m ops s a i q n : 0 < cap c <= lim -> history c m ops s a -> agetr a i = Some q -> p_spans q <> [] ->
  len (a_stream a) - p_pos q < n -> step c s (TryConsume i n) = Some (s, OBool false).
Proof.
  intros Hc Hh G Hs L. pose proof (history_rel _ _ _ _ _ Hc Hh) as H. destruct (agetr_rel _ _ _ _ _ H G) as (r & Er & Hr).
  destruct (Rel_reader _ _ _ _ _ H G) as (P1 & _).
  assert (E : astep c a (TryConsume i n) = Some (a, OBool false)).
  { cbn [astep]. rewrite G. destruct (p_spans q); [contradiction|]. replace (n <? 0) with false by lia. destruct (p_req q); [reflexivity|].
    unfold aavail. replace (_ <? n) with true by lia. reflexivity. }
  destruct (simulation _ _ _ _ _ _ H E) as (s' & S & _). rewrite S. f_equal. f_equal.
  cbn [step] in S. rewrite Er in S. destruct (r_spans r); [discriminate|]. unfold doTryConsume in S. destruct (n <? 0); [discriminate|].
  destruct (r_req r); [inversion S; reflexivity|]. destruct (_ && _); inversion S; reflexivity.
Qed.

Lemma remove_first {B} (l : list B) : remove_nth l 0 = tl l.
Proof. destruct l; reflexivity. Qed.

Lemma releases_run c i p : forall j a q, agetr a i = Some q -> length (p_spans q) = S j ->
  arun c a (repeat (ReleaseR i 0 p) j) =
  Some ((match j with O => a | _ => asetr a i (Some {| p_pos := p_pos q; p_first := p_first q; p_req := p_req q; p_done := p_done q; p_spans := skipn j (p_spans q) |}) end), repeat OUnit j).
Proof.
  induction j as [|j IH]; intros a q G Hl; cbn [repeat arun]; [reflexivity|].
  cbn [astep]. rewrite G. destruct (p_spans q) as [|l0 [|l1 ls]] eqn:Es; [discriminate|discriminate|]. cbn [nth_error remove_nth].
  set (a1 := asetr a i _).
  assert (G1 : agetr a1 i = Some {| p_pos := p_pos q; p_first := p_first q; p_req := p_req q; p_done := p_done q; p_spans := l1 :: ls |})
    by (unfold a1; eapply agetr_asetr_same; exact G).
  rewrite (IH a1 _ G1) by (cbn in *; lia). f_equal. f_equal. cbn [p_pos p_first p_req p_done p_spans].
  destruct j; [reflexivity|]. unfold a1, asetr; cbn [a_stream a_pend a_req a_inst a_fresh a_readers a_wm]. f_equal.
  generalize (a_readers a). clear. intros l. revert i. induction l as [|x l IH]; intros [|i]; cbn; try reflexivity. f_equal. apply IH.
Qed.

(** An accepted consume of [n]: the position moves by [n] exactly when the last of the [S j] live spans goes. *)
Lemma consume_round c m ops s a i q n j p s1 : 0 < cap c <= lim -> history c m ops s a -> agetr a i = Some q ->
  length (p_spans q) = S j -> step c s (TryConsume i n) = Some (s1, OBool true) ->
  (exists sj, run c s1 (repeat (ReleaseR i 0 p) j) = Some (sj, repeat OUnit j) /\
     step c sj (QReader i) = Some (sj, OR (p_pos q) (len (a_stream a) - p_pos q) (p_done q)) /\
   exists se, step c sj (ReleaseR i 0 p) = Some (se, OUnit) /\
     step c se (QReader i) = Some (se, OR (p_pos q + n) (len (a_stream a) - p_pos q - n) n)) /\
  step c s1 (TryConsume i n) = Some (s1, OBool false) /\ 0 <= n <= len (a_stream a) - p_pos q.
Proof.
  intros Hc Hh G Hl E. pose proof (history_rel _ _ _ _ _ Hc Hh) as H. destruct (agetr_rel _ _ _ _ _ H G) as (r & Er & Hr).
  assert (Hne : p_spans q <> []) by (intros E0; rewrite E0 in Hl; discriminate).
  destruct (ravail_rel c s a r q H Hr (in_positions _ _ _ G)) as [Av1 Av2].
  destruct (rrel_spans_first _ _ _ _ _ Hr Hne) as (f & Ef & Hf1 & Hf2).
  assert (D : 0 <= n /\ p_req q = None /\ n <= aavail a q).
  { cbn [step] in E. rewrite Er in E. destruct (r_spans r) eqn:Es; [discriminate|]. unfold doTryConsume in E. destruct (n <? 0) eqn:En; [discriminate|].
    rewrite (rr_req _ _ _ _ _ Hr) in E. destruct (p_req q); [discriminate|]. rewrite (rr_first _ _ _ _ _ Hr), Ef, Av1 in E.
    destruct ((f <? n) && (aavail a q <? n)) eqn:Eb; [discriminate|]. unfold aavail in *. split; [lia|]. split; [reflexivity|lia]. }
  destruct D as (D1 & D2 & D3).
  set (q1 := {| p_pos := p_pos q; p_first := p_first q; p_req := Some n; p_done := p_done q; p_spans := p_spans q |}).
  assert (E1 : astep c a (TryConsume i n) = Some (asetr a i (Some q1), OBool true)).
  { cbn [astep]. rewrite G. destruct (p_spans q) eqn:Es; [contradiction|]. replace (n <? 0) with false by lia. rewrite D2.
    replace (aavail a q <? n) with false by lia. unfold q1. reflexivity. }
  destruct (simulation _ _ _ _ _ _ H E1) as (s1' & S1 & H1). rewrite E in S1. inversion S1; subst s1'; clear S1.
  set (a1 := asetr a i (Some q1)) in *.
  assert (G1 : agetr a1 i = Some q1) by (unfold a1; eapply agetr_asetr_same; exact G).
  split; [|split].
  - pose proof (releases_run c i p j a1 q1 G1 Hl) as Rr.
    destruct (sim_run c _ _ _ _ _ H1 Rr) as (sj & Sj & Hj). exists sj. split; [exact Sj|].
    set (qj := {| p_pos := p_pos q; p_first := p_first q; p_req := Some n; p_done := p_done q; p_spans := skipn j (p_spans q) |}).
    match type of Hj with Rel _ _ ?x => set (aj := x) in * end.
    assert (Gj : agetr aj i = Some qj).
    { unfold aj. destruct j; [exact G1|]. eapply agetr_asetr_same; exact G1. }
    assert (Sstream : a_stream aj = a_stream a) by (unfold aj; destruct j; reflexivity).
    assert (Qj : astep c aj (QReader i) = Some (aj, OR (p_pos q) (len (a_stream a) - p_pos q) (p_done q))).
    { cbn [astep]. rewrite Gj. unfold aavail. rewrite Sstream. reflexivity. }
    destruct (simulation _ _ _ _ _ _ Hj Qj) as (sj' & Sj' & _).
    split.
    { rewrite Sj'. cbn [step] in Sj'. destruct (getr sj i); inversion Sj'; subst; reflexivity. }
    assert (Ls : length (skipn j (p_spans q)) = 1%nat) by (rewrite skipn_length, Hl; lia).
    assert (Er' : astep c aj (ReleaseR i 0 p) = Some (asetr aj i (Some {| p_pos := p_pos q + n; p_first := None; p_req := None; p_done := n; p_spans := [] |}), OUnit)).
    { cbn [astep]. rewrite Gj. cbn [p_spans qj]. destruct (skipn j (p_spans q)) as [|x [|y z]] eqn:Esk; [discriminate| |discriminate]. cbn [nth_error remove_nth].
      unfold qj; cbn [p_req p_pos]. destruct p; reflexivity. }
    destruct (simulation _ _ _ _ _ _ Hj Er') as (se & Se & He). exists se. split; [exact Se|].
    match type of He with Rel _ _ ?x => set (ae := x) in * end.
    assert (Ge : agetr ae i = Some {| p_pos := p_pos q + n; p_first := None; p_req := None; p_done := n; p_spans := [] |}) by (eapply agetr_asetr_same; exact Gj).
    assert (Qe : astep c ae (QReader i) = Some (ae, OR (p_pos q + n) (len (a_stream a) - p_pos q - n) n)).
    { cbn [astep]. rewrite Ge. unfold aavail. cbn [p_pos p_done]. unfold ae, asetr; cbn [a_stream]. rewrite Sstream. do 3 f_equal. lia. }
    destruct (simulation _ _ _ _ _ _ He Qe) as (se' & Se' & _). rewrite Se'. cbn [step] in Se'. destruct (getr se i); inversion Se'; subst; reflexivity.
  - destruct (agetr_rel _ _ _ _ _ H1 G1) as (r1 & Er1 & Hr1). cbn [step]. rewrite Er1, (rr_spans _ _ _ _ _ Hr1). unfold q1; cbn [p_spans].
    destruct (p_spans q); [contradiction|]. cbn [map]. unfold doTryConsume. replace (n <? 0) with false by lia. rewrite (rr_req _ _ _ _ _ Hr1). reflexivity.
  - unfold aavail in D3. lia.
Qed.

(** Repeated gets in one round. *)
Lemma get_round c m ops s a i q f k s1 l : 0 < cap c <= lim -> history c m ops s a -> agetr a i = Some q -> p_first q = Some f ->
  step c s (Get i k) = Some (s1, OLen l) -> l <= f.
Proof.
  intros Hc Hh G Ef E. pose proof (history_rel _ _ _ _ _ Hc Hh) as H. destruct (agetr_rel _ _ _ _ _ H G) as (r & Er & Hr).
  cbn [step] in E. rewrite Er in E. unfold doGet in E. destruct (r_req r); [discriminate|].
  destruct (match k with None => _ | Some _ => _ end) as [w|]; [|discriminate]. rewrite (rr_first _ _ _ _ _ Hr), Ef in E. inversion E; subst. lia.
Qed.

(** Release of the only span without a consume request. *)
Lemma release_policy c m ops s a i q l p f : 0 < cap c <= lim -> history c m ops s a -> agetr a i = Some q -> p_spans q = [l] -> p_req q = None ->
  p_first q = Some f -> p <> Terminate ->
  exists s1 d, step c s (ReleaseR i 0 p) = Some (s1, OUnit) /\
  step c s1 (QReader i) = Some (s1, OR (p_pos q + match p with ProcessAll => f | _ => 0 end) (len (a_stream a) - p_pos q - match p with ProcessAll => f | _ => 0 end) d).
Proof.
  intros Hc Hh G Es Eq Ef Hp. pose proof (history_rel _ _ _ _ _ Hc Hh) as H.
  set (n := match p with ProcessAll => f | _ => 0 end).
  set (d := if n =? 0 then p_done q else n).
  set (q1 := {| p_pos := p_pos q + n; p_first := None; p_req := None; p_done := d; p_spans := [] |}).
  assert (E : astep c a (ReleaseR i 0 p) = Some (asetr a i (Some q1), OUnit)).
  { cbn [astep]. rewrite G, Es. cbn [nth_error remove_nth]. rewrite Eq, Ef. destruct p; [contradiction| |]; reflexivity. }
  destruct (simulation _ _ _ _ _ _ H E) as (s1 & S1 & H1). exists s1, d. split; [exact S1|].
  assert (G1 : agetr (asetr a i (Some q1)) i = Some q1) by (eapply agetr_asetr_same; exact G).
  assert (Q : astep c (asetr a i (Some q1)) (QReader i) = Some (asetr a i (Some q1), OR (p_pos q + n) (len (a_stream a) - p_pos q - n) d)).
  { cbn [astep]. rewrite G1. unfold aavail, q1, asetr. cbn [p_pos p_done a_stream]. do 3 f_equal. lia. }
  destruct (simulation _ _ _ _ _ _ H1 Q) as (s2 & S2 & _). rewrite S2. cbn [step] in S2. destruct (getr s1 i); inversion S2; subst; reflexivity.
Qed.

(** *** Housekeeping *)
Lemma housekeeping_invisible c m ops s a i k s' l : 0 < cap c <= lim -> history c m ops s a -> (clr c = None \/ total a <= a_wm a + cap c) ->
  step c s (ReadRSpan i k) = Some (s', OElems l) ->
  exists s1, step c s HouseKeep = Some (s1, OUnit) /\ step c s1 (ReadRSpan i k) = Some (s1, OElems l).
Proof.
  intros Hc Hh Hok E.
  assert (E1 : exists a1, arun c a [HouseKeep] = Some (a1, [OUnit])).
  { cbn [arun astep]. unfold arecycle. destruct (clr c); [|eauto]. destruct Hok as [Hok|Hok]; [discriminate|].
    destruct (slowest (positions a)); [|eauto]. destruct (_ <=? a_wm a); [eauto|]. replace (total a <=? a_wm a + cap c) with true by lia. eauto. }
  destruct E1 as [a1 E1]. destruct (history_extend _ _ _ _ _ _ _ _ Hc Hh E1) as (s1 & S1 & Hh1).
  exists s1. split.
  - cbn [run] in S1. destruct (step c s HouseKeep) as [[s2 x]|]; inversion S1; subst. reflexivity.
  - eapply held_span_stable; [exact Hc|exact Hh| |exact Hh1|exact E]. constructor; [exact I|constructor].
Qed.

End Facts.
