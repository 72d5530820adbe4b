From Coq Require Import List ZArith Bool Lia.
From Verif Require Import Base RingModel RingArithProofs SpModel.
Import ListNotations.
Local Open Scope Z_scope.
Require Import ZifyBool ZifyNat.
Ltac Zify.zify_post_hook ::= idtac.

Section Proofs.
Context {V : Type}.
Implicit Types (s : st V).
Variable N : Z.
Hypothesis HN : 0 < N <= spLimit.

Lemma mod_inj' a b : a mod N = b mod N -> -N < a - b < N -> a = b.
Proof.
  intros E H. pose proof (Z.div_mod a N ltac:(lia)) as A1. pose proof (Z.div_mod b N ltac:(lia)) as A2. rewrite E in A1.
  assert (a / N = b / N) by (clear E; nia). congruence.
Qed.
Lemma fset_same {B} (f : Z -> B) i v : fset f i v i = v.
Proof. unfold fset. rewrite Z.eqb_refl. reflexivity. Qed.
Lemma fset_other {B} (f : Z -> B) i v j : j <> i -> fset f i v j = f j.
Proof. unfold fset. intros H. apply Z.eqb_neq in H. rewrite H. reflexivity. Qed.

(** Between its first load of the publish cursor and its generation bump. *)
Definition inWindow (p : phase) : bool := match p with RCur _ | RReg | RReg2 _ | RSet => true | _ => false end.
(** Bumped and not yet removed. *)
Definition attached (p : phase) : bool := match p with RBump | RLive | RDel | RDelCas _ => true | _ => false end.
(** In the list. *)
Definition listed (p : phase) : bool := match p with RReg | RReg2 _ | RSet | RBump | RLive | RDel | RDelCas _ => true | _ => false end.
(** Possibly in the writer's cached list. *)
Definition wasListed (p : phase) : bool := match p with RNew | RLoaded _ | RCur _ => false | _ => true end.

Definition pinv s (x : rdr) : Prop :=
  match ph x with
  | RNew | RLoaded _ => True
  | RCur _ | RReg | RSet => cur x = pub s
  | RReg2 c => cur x = pub s /\ c = pub s
  | _ => 0 <= cur x <= pub s
  end.
Definition ainv s (x : rdr) : Prop :=
  attached (ph x) = true -> res s - cur x <= N /\ (forall p, cur x <= p < pub s -> mem s (p mod N) = val s p) /\
  (ph x <> RBump -> loc x = cur x /\ loc x <= seen x <= pub s /\ 0 <= span x <= seen x - loc x).

Definition winv s : Prop :=
  match w s with
  | WIdle => res s = pub s
  | WGen n => res s = pub s /\ 1 <= n <= N
  | WReload n g => res s = pub s /\ 1 <= n <= N /\ g <= gen s
  | WScan n j m => res s = pub s /\ 1 <= n <= N /\
      match m with Some y => (0 < j)%nat /\ res s - y <= N /\ 0 <= y <= pub s /\
                             forall k id x, (k < j)%nat -> nth_error (clist s) k = Some id -> nth_error (rds s) id = Some x -> y <= cur x
      | None => j = 0%nat end
  | WWrite base n i => base = pub s /\ res s = base + n /\ 1 <= n <= N /\ 0 <= i <= n /\
      forall p, base <= p < base + i -> mem s (p mod N) = val s p /\ val s p <> None
  end.

Record Inv s : Prop := {
  I_cur : 0 <= pub s <= res s /\ res s <= spLimit;
  I_gen : cgen s <= gen s;
  I_p : forall r x, nth_error (rds s) r = Some x -> pinv s x /\ ainv s x;
  I_regs : forall r, In r (regs s) <-> exists x, nth_error (rds s) r = Some x /\ listed (ph x) = true;
  I_cl : forall r, In r (clist s) -> exists x, nth_error (rds s) r = Some x /\ wasListed (ph x) = true /\ res s - cur x <= N;
  I_K : forall r x, nth_error (rds s) r = Some x -> attached (ph x) = true -> ~ In r (clist s) ->
        match w s with WReload _ _ => True | WScan _ _ _ => gen s <> cgen s /\ cur x = pub s | _ => gen s <> cgen s end;
  I_w : winv s;
  I_val : forall p, 0 <= p < pub s -> val s p <> None;
  I_log : forall r p v, In (r, p, v) (log s) -> 0 <= p < pub s /\ v = val s p }.

Lemma wasListed_bounds s r x : Inv s -> nth_error (rds s) r = Some x -> wasListed (ph x) = true -> 0 <= cur x <= pub s.
Proof.
  intros H Hx L. destruct (I_p s H r x Hx) as [P _]. pose proof (I_cur s H). unfold pinv in P. destruct (ph x); cbn in L; try discriminate; lia.
Qed.

(** A step of one reader that changes neither list nor generation. *)
Lemma Inv_setr s r x x' : Inv s -> nth_error (rds s) r = Some x ->
  pinv s x' -> (attached (ph x') = true -> attached (ph x) = true /\ (ph x' <> RBump -> loc x' = cur x' /\ loc x' <= seen x' <= pub s /\ 0 <= span x' <= seen x' - loc x')) ->
  (attached (ph x) = true \/ wasListed (ph x) = true -> cur x <= cur x') -> listed (ph x') = listed (ph x) -> (wasListed (ph x) = true -> wasListed (ph x') = true) ->
  Inv (setr s r x').
Proof.
  intros H Hx Hp Ha Hc Hl Hw. pose proof H as H0. destruct H.
  assert (Same : forall k y, nth_error (upd (rds s) r x') k = Some y -> (k = r /\ y = x') \/ (k <> r /\ nth_error (rds s) k = Some y)).
  { intros k y Hk. apply nth_upd_inv in Hk. destruct Hk as [[E ->]|[E Hk]]; [left; auto|right; split; [intros E2; apply E; symmetry; exact E2|exact Hk]]. }
  constructor; unfold setr; cbn [mem pub res regs ver gen cgen clist w rds val log]; auto.
  - intros k y Hk. destruct (Same k y Hk) as [[-> ->]|[Hn Hk']]; [|apply (I_p0 k y Hk')]. split; [exact Hp|].
    intros A. destruct (Ha A) as [A2 A3]. destruct (I_p0 r x Hx) as [_ Q]. destruct (Q A2) as (Q1 & Q2 & Q3). specialize (Hc (or_introl A2)).
    cbn [mem pub res val]. split; [lia|]. split; [intros p Hpp; apply Q2; lia|exact A3].
  - intros k. rewrite (I_regs0 k). split; intros (y & Hy & L).
    + destruct (Nat.eq_dec k r) as [->|Hn].
      * exists x'. split; [apply (nth_upd_same _ _ _ _ Hx)|]. rewrite Hx in Hy; inversion Hy; subst y. rewrite Hl. exact L.
      * exists y. split; [|exact L]. rewrite nth_upd_other; [exact Hy|]. intros E; apply Hn; symmetry; exact E.
    + destruct (Same k y Hy) as [[-> ->]|[Hn Hk']]; [exists x; split; [exact Hx|rewrite <- Hl; exact L]|exists y; auto].
  - intros k Hk. destruct (I_cl0 k Hk) as (y & Hy & L1 & L2). destruct (Nat.eq_dec k r) as [->|Hn].
    + rewrite Hx in Hy; inversion Hy; subst y. exists x'. split; [apply (nth_upd_same _ _ _ _ Hx)|]. split; [apply Hw, L1|]. specialize (Hc (or_intror L1)). lia.
    + exists y. split; [|auto]. rewrite nth_upd_other; [exact Hy|]. intros E; apply Hn; symmetry; exact E.
  - intros k y Hk A Hn. destruct (Same k y Hk) as [[-> ->]|[_ Hk']]; [|apply (I_K0 k y Hk' A Hn)].
    destruct (Ha A) as [A2 A3]. pose proof (I_K0 r x Hx A2 Hn) as K. destruct (w s); auto.
    destruct K as [K1 K2]. split; [exact K1|]. specialize (Hc (or_introl A2)). unfold pinv in Hp.
    destruct (ph x'); cbn in A; try discriminate; lia.
  - unfold winv in *. cbn [w res pub gen clist rds mem val]. destruct (w s); auto.
    destruct I_w0 as (W1 & W2 & W3). split; [exact W1|]. split; [exact W2|]. destruct m as [y|]; [|exact W3].
    destruct W3 as (W3 & W4 & W5 & W6). split; [exact W3|]. split; [exact W4|]. split; [exact W5|].
    intros k id z Hk Hid Hz. destruct (Same id z Hz) as [[-> ->]|[Hn Hz']].
    + specialize (W6 k r x Hk Hid Hx). destruct (I_cl0 r (nth_error_In _ _ Hid)) as (y2 & Hy2 & L & _). rewrite Hx in Hy2; inversion Hy2; subst y2.
      specialize (Hc (or_intror L)). lia.
    + apply (W6 k id z Hk Hid Hz').
Qed.

(** Changing a reader's phase together with the list or the generation. *)
Lemma Inv_list s r x x' l g : Inv s -> nth_error (rds s) r = Some x -> gen s <= g ->
  cur x' = cur x -> loc x' = loc x -> seen x' = seen x -> span x' = span x -> pinv s x' -> (wasListed (ph x) = true -> wasListed (ph x') = true) ->
  (attached (ph x') = true -> attached (ph x) = true /\ (ph x' <> RBump -> ph x <> RBump) \/ (gen s < g /\ cur x' = pub s /\ ph x' = RBump /\ attached (ph x) = false)) ->
  (forall k, In k l <-> exists y, nth_error (upd (rds s) r x') k = Some y /\ listed (ph y) = true) ->
  forall v, Inv {| mem := mem s; pub := pub s; res := res s; regs := l; ver := v; gen := g; cgen := cgen s; clist := clist s; w := w s;
     rds := upd (rds s) r x'; val := val s; log := log s |}.
Proof.
  intros H Hx Hg Ec El Es Esp Hp Hw Ha Hreg v. pose proof H as H0. destruct H.
  assert (Room : attached (ph x') = true -> cur x' = pub s -> res s - pub s <= N).
  { intros _ _. unfold winv in I_w0. destruct (w s); lia. }
  assert (Same : forall k y, nth_error (upd (rds s) r x') k = Some y -> (k = r /\ y = x') \/ (k <> r /\ nth_error (rds s) k = Some y)).
  { intros k y Hk. apply nth_upd_inv in Hk. destruct Hk as [[E ->]|[E Hk]]; [left; auto|right; split; [intros E2; apply E; symmetry; exact E2|exact Hk]]. }
  constructor; cbn [mem pub res regs ver gen cgen clist w rds val log]; auto.
  - lia.
  - intros k y Hk. destruct (Same k y Hk) as [[-> ->]|[Hn Hk']]; [|apply (I_p0 k y Hk')]. split; [exact Hp|].
    intros A. cbn [mem pub res val]. destruct (Ha A) as [[A2 A3]|(A2 & A3 & A4 & A5)].
    + destruct (I_p0 r x Hx) as [_ Q]. destruct (Q A2) as (Q1 & Q2 & Q3). rewrite Ec, El, Es, Esp. split; [exact Q1|]. split; [exact Q2|].
      intros E. apply Q3, A3, E.
    + specialize (Room A A3). split; [lia|]. split; [intros p Hpp; lia|]. intros E. contradiction.
  - intros k Hk. destruct (I_cl0 k Hk) as (y & Hy & L1 & L2). destruct (Nat.eq_dec k r) as [->|Hn].
    + rewrite Hx in Hy; inversion Hy; subst y. exists x'. split; [apply (nth_upd_same _ _ _ _ Hx)|]. split; [apply Hw, L1|]. lia.
    + exists y. split; [|auto]. rewrite nth_upd_other; [exact Hy|]. intros E; apply Hn; symmetry; exact E.
  - intros k y Hk A Hn. destruct (Same k y Hk) as [[-> ->]|[_ Hk']].
    + destruct (Ha A) as [[A2 A3]|(A2 & A3 & A4 & A5)].
      * pose proof (I_K0 r x Hx A2 Hn) as K. destruct (w s); try rewrite Ec; lia.
      * destruct (w s); lia.
    + pose proof (I_K0 k y Hk' A Hn) as K. destruct (w s); lia.
  - unfold winv in *. cbn [w res pub gen clist rds mem val]. destruct (w s); auto.
    + lia.
    + destruct I_w0 as (W1 & W2 & W3). split; [exact W1|]. split; [exact W2|]. destruct m as [y|]; [|exact W3].
      destruct W3 as (W3 & W4 & W5 & W6). split; [exact W3|]. split; [exact W4|]. split; [exact W5|].
      intros k id z Hk Hid Hz. destruct (Same id z Hz) as [[-> ->]|[Hn Hz']].
      * rewrite Ec. apply (W6 k r x Hk Hid Hx).
      * apply (W6 k id z Hk Hid Hz').
Qed.

Lemma Inv_setw s x : Inv s -> (match x with WReload _ _ => False | WScan _ _ _ => match w s with WGen _ => gen s = cgen s | WScan _ _ _ => True | _ => False end
                                | WWrite _ _ _ => False | _ => match w s with WReload _ _ => False | _ => True end end) -> winv (setw s x) -> Inv (setw s x).
Proof.
  intros H Hx Hw. destruct H. constructor; unfold setw; cbn [mem pub res regs ver gen cgen clist w rds val log]; auto.
  intros k y Hk A Hn. pose proof (I_K0 k y Hk A Hn) as K. destruct x; try contradiction; destruct (w s); try contradiction; try exact K; try lia.
Qed.

Definition quietStep s (a : action V) : Prop :=
  match a with WPublish _ => forall r x, nth_error (rds s) r = Some x -> inWindow (ph x) = false | _ => True end.

Lemma Inv_wstep s : Inv s -> Inv (wstep N s).
Proof.
  intros H. unfold wstep. pose proof (I_cur s H) as Cu. pose proof (I_w s H) as W. unfold winv in W.
  destruct (w s) as [|n|n g|n j m|base n i] eqn:Ew; try exact H.
  - destruct (Z.eqb_spec (gen s) (cgen s)) as [E|E].
    + apply Inv_setw; [exact H|rewrite Ew; exact E|]. unfold winv; cbn. tauto.
    + destruct H. constructor; unfold setw; cbn [mem pub res regs ver gen cgen clist w rds val log]; auto.
      unfold winv; cbn. lia.
  - destruct H. constructor; cbn [mem pub res regs ver gen cgen clist w rds val log]; auto.
    + lia.
    + intros r Hr. apply I_regs0 in Hr. destruct Hr as (x & Hx & L). exists x. split; [exact Hx|].
      assert (WL : wasListed (ph x) = true) by (destruct (ph x); cbn in *; congruence). split; [exact WL|].
      destruct (I_p0 r x Hx) as [P A]. unfold ainv in A. unfold pinv in P. destruct (ph x); cbn in *; try discriminate; try lia; destruct (A eq_refl); lia.
    + intros r x Hx A Hn. exfalso. apply Hn. apply I_regs0. exists x. split; [exact Hx|]. destruct (ph x); cbn in *; congruence.
    + unfold winv; cbn. tauto.
  - destruct (nth_error (clist s) j) as [id|] eqn:Ej.
    + destruct (I_cl s H id (nth_error_In _ _ Ej)) as (x & Hx & L1 & L2). rewrite Hx. pose proof (wasListed_bounds s id x H Hx L1) as B.
      apply Inv_setw; [exact H|rewrite Ew; exact I|]. unfold winv; cbn [setw w res pub clist rds].
      destruct W as (W1 & W2 & W3). split; [exact W1|]. split; [exact W2|]. destruct m as [y|].
      * destruct W3 as (W3 & W4 & W5 & W6). split; [lia|]. split; [lia|]. split; [lia|]. intros k id' z Hk Hid Hz.
        destruct (Nat.eq_dec k j) as [->|Hne]; [rewrite Ej in Hid; inversion Hid; subst id'; rewrite Hx in Hz; inversion Hz; subst z; lia|].
        specialize (W6 k id' z ltac:(lia) Hid Hz). lia.
      * subst j. split; [lia|]. split; [lia|]. split; [lia|]. intros k id' z Hk Hid Hz. assert (k = 0%nat) as -> by lia.
        rewrite Ej in Hid; inversion Hid; subst id'; rewrite Hx in Hz; inversion Hz; subst z; lia.
    + unfold decide. destruct W as (W1 & W2 & W3).
      destruct (Z.ltb_spec (wsub N (wsub (res s) (match m with Some x => x | None => 0 end))) n) as [L|L];
        [apply Inv_setw; [exact H|rewrite Ew; exact I|unfold winv; cbn; lia]|].
      destruct (Z.leb_spec (res s + n) spLimit) as [L2|L2]; [|apply Inv_setw; [exact H|rewrite Ew; exact I|unfold winv; cbn; lia]].
      assert (Cl : forall r x, In r (clist s) -> nth_error (rds s) r = Some x -> res s + n - cur x <= N).
      { intros r x Hr Hx. destruct (In_nth_error _ _ Hr) as [k Hk]. assert (Hkj : (k < j)%nat).
        { apply nth_error_None in Ej. assert (k < length (clist s))%nat by (apply nth_error_Some; congruence). lia. }
        destruct m as [y|]; [|lia]. destruct W3 as (W3 & W4 & W5 & W6). specialize (W6 k r x Hkj Hk Hx).
        unfold wsub in L. unfold spLimit in *. rewrite (Z.mod_small (res s - y)) in L by lia. rewrite Z.mod_small in L by lia. lia. }
      assert (At : forall r x, nth_error (rds s) r = Some x -> attached (ph x) = true -> res s + n - cur x <= N).
      { intros r x Hx A. destruct (in_dec Nat.eq_dec r (clist s)) as [Hin|Hnin]; [eapply Cl; eauto|].
        pose proof (I_K s H r x Hx A Hnin) as K. rewrite Ew in K. lia. }
      pose proof H as H0. destruct H. constructor; cbn [mem pub res regs ver gen cgen clist w rds val log]; auto.
      * lia.
      * intros r x Hx. destruct (I_p0 r x Hx) as [P A]. split; [exact P|]. intros At'. destruct (A At') as (A1 & A2 & A3).
        cbn [mem pub res val]. split; [apply (At r x Hx At')|]. auto.
      * intros r Hr. destruct (I_cl0 r Hr) as (x & Hx & X1 & X2). exists x. split; [exact Hx|]. split; [exact X1|]. apply (Cl r x Hr Hx).
      * intros r x Hx A Hn. pose proof (I_K0 r x Hx A Hn) as K. rewrite Ew in K. apply K.
      * unfold winv; cbn. repeat split; try lia.
Qed.

Lemma live_Some s r x : live s r = Some x -> nth_error (rds s) r = Some x /\ ph x = RLive.
Proof. unfold live. destruct (nth_error (rds s) r) as [y|]; [|discriminate]. destruct (ph y) eqn:E; try discriminate. intros X; inversion X; subst; auto. Qed.

Lemma listed_upd s r x x' l : Inv s -> nth_error (rds s) r = Some x ->
  (forall k, k <> r -> (In k l <-> In k (regs s))) -> (In r l <-> listed (ph x') = true) ->
  forall k, In k l <-> exists y, nth_error (upd (rds s) r x') k = Some y /\ listed (ph y) = true.
Proof.
  intros H Hx Ho Hr k. destruct (Nat.eq_dec k r) as [->|Hn].
  - rewrite Hr. rewrite (nth_upd_same _ _ _ _ Hx). split; [intros L; exists x'; auto|]. intros (y & E & L). inversion E; subst; exact L.
  - rewrite (Ho k Hn), (I_regs s H k). rewrite nth_upd_other by (intros E; apply Hn; symmetry; exact E). reflexivity.
Qed.

Ltac rsimple := eapply Inv_setr; eauto; unfold pinv; cbn [setph setcur ph cur loc seen span]; cbn [attached listed wasListed];
  repeat match goal with E : ph ?x = _ |- context[ph ?x] => rewrite E; cbn [attached listed wasListed] end;
  try tauto; try discriminate; try lia; try (intros [?|?]; discriminate);
  try (intros _; split; [reflexivity|]; intros _; match goal with A : _ /\ _ /\ (_ -> _) |- _ => apply A; discriminate end).

Lemma Inv_rstep s r x : Inv s -> nth_error (rds s) r = Some x -> Inv (rstep s r x).
Proof.
  intros H Hx. pose proof (I_cur s H) as Cu. destruct (I_p s H r x Hx) as [P A]. unfold rstep. unfold pinv in P. unfold ainv in A.
  assert (Reg : In r (regs s) <-> listed (ph x) = true).
  { rewrite (I_regs s H r). split; [intros (y & E & L); rewrite Hx in E; inversion E; subst; exact L|intros L; exists x; auto]. }
  destruct (ph x) eqn:Ep.
  - rsimple.
  - rsimple.
  - destruct (ver s =? v).
    + unfold setlist. eapply Inv_list; eauto; cbn [setph cur loc seen span ph]; rewrite ?Ep; cbn [listed attached wasListed]; try lia; try discriminate; auto.
      apply (listed_upd s r x); auto.
      * intros k Hk. rewrite in_app_iff. cbn. split; [intros [?|[E|[]]]; [assumption|]; subst; contradiction|auto].
      * cbn. rewrite in_app_iff. cbn. tauto.
    + rsimple.
  - rsimple.
  - rsimple.
  - unfold bump. eapply Inv_list; eauto; cbn [setph cur loc seen span ph]; rewrite ?Ep; cbn [listed attached wasListed]; try lia; auto.
    + unfold pinv; cbn. lia.
    + intros _. right. repeat split; auto. lia.
    + apply (listed_upd s r x); auto; try tauto; cbn; exact Reg.
  - specialize (A eq_refl). rsimple.
  - specialize (A eq_refl). destruct (Z.eqb_spec (span x) 0); [|exact H]. rsimple.
  - specialize (A eq_refl). rsimple.
  - destruct (ver s =? v).
    + unfold setlist. eapply Inv_list; eauto; cbn [setph cur loc seen span ph]; rewrite ?Ep; cbn [listed attached wasListed]; try lia; try discriminate; auto.
      apply (listed_upd s r x); auto.
      * intros k Hk. rewrite filter_In. split; [tauto|]. intros Hin. split; [exact Hin|]. apply Nat.eqb_neq in Hk. rewrite Hk. reflexivity.
      * cbn. rewrite filter_In, Nat.eqb_refl. cbn. split; [intros [_ ?]; discriminate|discriminate].
    + specialize (A eq_refl). rsimple.
  - unfold bump. eapply Inv_list; eauto; cbn [setph cur loc seen span ph]; rewrite ?Ep; cbn [listed attached wasListed]; try lia; try discriminate; auto.
    apply (listed_upd s r x); auto; try tauto; cbn; exact Reg.
  - exact H.
Qed.

Lemma Inv_step s a : Inv s -> quietStep s a -> Inv (step N s a).
Proof.
  intros H Q. pose proof (I_cur s H) as Cu. destruct a as [n| |v|k|r|r|r n|r j|r k]; cbn [step].
  - pose proof (I_w s H) as W. unfold winv in W. destruct (w s) eqn:Ew; try exact H. destruct ((0 <? n) && (n <=? N)) eqn:E; [|exact H].
    apply Inv_setw; [exact H|rewrite Ew; exact I|]. unfold winv; cbn. lia.
  - apply Inv_wstep, H.
  - pose proof (I_w s H) as W. unfold winv in W. destruct (w s) as [| | | |base n i] eqn:Ew; try exact H. destruct (Z.ltb_spec i n) as [L|L]; [|exact H].
    destruct W as (W1 & W2 & W3 & W4 & W5). rewrite calcIndex_mod.
    assert (Keep : forall p, base + i - N < p < base + i + N -> p <> base + i -> fset (mem s) ((base + i) mod N) (Some v) (p mod N) = mem s (p mod N)).
    { intros p Hp Hne. apply fset_other. intros E. apply Hne. apply mod_inj'; [exact E|lia]. }
    destruct H. constructor; cbn [mem pub res regs ver gen cgen clist w rds val log]; auto.
    + intros r x Hx. destruct (I_p0 r x Hx) as [P A]. split; [exact P|]. intros At. destruct (A At) as (A1 & A2 & A3). cbn [mem pub res val].
      split; [exact A1|]. split; [|exact A3]. intros p Hp. rewrite Keep by lia. rewrite fset_other by lia. apply A2, Hp.
    + intros r x Hx At Hn. pose proof (I_K0 r x Hx At Hn) as K. rewrite Ew in K. exact K.
    + unfold winv; cbn [w pub res mem val]. split; [lia|]. split; [lia|]. split; [lia|]. split; [lia|]. intros p Hp.
      destruct (Z.eq_dec p (base + i)) as [->|Hne]; [rewrite !fset_same; split; [reflexivity|discriminate]|].
      rewrite Keep by lia. rewrite fset_other by lia. apply W5. lia.
    + intros p Hp. rewrite fset_other by lia. apply I_val0, Hp.
    + intros r p u Hl. destruct (I_log0 r p u Hl) as [L1 L2]. split; [exact L1|]. rewrite fset_other by lia. exact L2.
  - pose proof (I_w s H) as W. unfold winv in W. destruct (w s) as [| | | |base n i] eqn:Ew; try exact H. destruct ((0 <=? k) && (k <=? i)) eqn:E; [|exact H].
    destruct W as (W1 & W2 & W3 & W4 & W5). cbn [quietStep] in Q.
    destruct H. constructor; cbn [mem pub res regs ver gen cgen clist w rds val log]; auto.
    + lia.
    + intros r x Hx. destruct (I_p0 r x Hx) as [P A]. specialize (Q r x Hx). unfold pinv, ainv in *. cbn [mem pub res val]. split.
      * destruct (ph x); cbn in Q; try discriminate; auto; lia.
      * intros At. destruct (A At) as (A1 & A2 & A3). split; [lia|]. split.
        -- intros p Hp. destruct (Z.lt_ge_cases p base); [apply A2; lia|apply W5; lia].
        -- intros Hb. destruct (A3 Hb) as (A4 & A5 & A6). lia.
    + intros r Hr. destruct (I_cl0 r Hr) as (x & Hx & L1 & L2). exists x. repeat split; auto. lia.
    + intros r x Hx At Hn. pose proof (I_K0 r x Hx At Hn) as K. rewrite Ew in K. exact K.
    + unfold winv; cbn. reflexivity.
    + intros p Hp. destruct (Z.lt_ge_cases p base); [apply I_val0; lia|apply W5; lia].
    + intros r p u Hl. destruct (I_log0 r p u Hl) as [L1 L2]. split; [lia|exact L2].
  - destruct (nth_error (rds s) r) as [x|] eqn:Hx; [|exact H]. apply Inv_rstep; assumption.
  - destruct (live s r) as [x|] eqn:Hl; [|exact H]. apply live_Some in Hl. destruct Hl as [Hx Ep]. destruct (I_p s H r x Hx) as [P A].
    unfold pinv, ainv in *. rewrite Ep in *. cbn in A. specialize (A eq_refl). destruct A as (A1 & A2 & A3). specialize (A3 ltac:(discriminate)).
    eapply Inv_setr; eauto; cbn [ph cur loc seen span]; rewrite ?Ep; cbn; auto; try lia; try (intros _; split; [reflexivity|]; intros _; lia).
  - destruct (live s r) as [x|] eqn:Hl; [|exact H]. apply live_Some in Hl. destruct Hl as [Hx Ep]. destruct ((0 <=? n) && (n <=? seen x - loc x)) eqn:E; [|exact H].
    destruct (I_p s H r x Hx) as [P A].
    unfold pinv, ainv in *. rewrite Ep in *. cbn in A. specialize (A eq_refl). destruct A as (A1 & A2 & A3). specialize (A3 ltac:(discriminate)).
    eapply Inv_setr; eauto; cbn [ph cur loc seen span]; rewrite ?Ep; cbn; auto; try lia; try (intros _; split; [reflexivity|]; intros _; lia).
  - destruct (live s r) as [x|] eqn:Hl; [|exact H]. apply live_Some in Hl. destruct Hl as [Hx Ep]. destruct ((0 <=? j) && (j <? span x)) eqn:E; [|exact H].
    destruct (I_p s H r x Hx) as [P A]. unfold pinv, ainv in *. rewrite Ep in *. cbn in A. specialize (A eq_refl). destruct A as (A1 & A2 & A3).
    specialize (A3 ltac:(discriminate)). rewrite calcIndex_mod.
    destruct H. constructor; cbn [mem pub res regs ver gen cgen clist w rds val log]; auto.
    intros r0 p0 u [E0|Hl]; [|apply (I_log0 _ _ _ Hl)]. inversion E0; subst r0 p0 u. split; [lia|apply A2; lia].
  - destruct (live s r) as [x|] eqn:Hl; [|exact H]. apply live_Some in Hl. destruct Hl as [Hx Ep]. destruct ((0 <=? k) && (k <=? seen x - loc x)) eqn:E; [|exact H].
    destruct (I_p s H r x Hx) as [P A].
    unfold pinv, ainv in *. rewrite Ep in *. cbn in A. specialize (A eq_refl). destruct A as (A1 & A2 & A3). specialize (A3 ltac:(discriminate)).
    eapply Inv_setr; eauto; cbn [ph cur loc seen span]; rewrite ?Ep; cbn; auto; try lia; try (intros _; split; [reflexivity|]; intros _; lia).
Qed.

Lemma nth_init na nn r x : nth_error (rds (init (V:=V) na nn)) r = Some x ->
  cur x = 0 /\ loc x = 0 /\ seen x = 0 /\ span x = 0 /\ ((r < na)%nat /\ ph x = RLive \/ (na <= r)%nat /\ ph x = RNew).
Proof.
  cbn [init rds]. intros H. destruct (Nat.lt_ge_cases r na) as [L|L].
  - rewrite nth_error_app1 in H by (rewrite repeat_length; exact L). apply nth_error_In, repeat_spec in H. subst. cbn. auto 10.
  - rewrite nth_error_app2 in H by (rewrite repeat_length; exact L). apply nth_error_In, repeat_spec in H. subst. cbn. auto 10.
Qed.

Lemma Inv_init na nn : Inv (init na nn).
Proof.
  assert (L0 : 0 <= spLimit) by (unfold spLimit; lia).
  constructor; try (cbn [init mem pub res regs ver gen cgen clist w rds val log]; lia).
  - intros r x Hx. apply nth_init in Hx. destruct Hx as (E1 & E2 & E3 & E4 & E5). unfold pinv, ainv. cbn [init pub res mem val].
    rewrite E1, E2, E3, E4. destruct E5 as [[_ ->]|[_ ->]]; cbn; split; auto; try lia; try discriminate.
    intros _. repeat split; try lia.
  - intros r. cbn [init regs]. rewrite in_seq. split.
    + intros Hr. exists {| cur := 0; loc := 0; seen := 0; span := 0; ph := RLive |}. split; [|reflexivity]. cbn [init rds].
      rewrite nth_error_app1 by (rewrite repeat_length; lia). apply nth_error_repeat. lia.
    + intros (x & Hx & L). apply nth_init in Hx. destruct Hx as (_ & _ & _ & _ & [[? _]|[_ E]]); [lia|]. rewrite E in L. discriminate.
  - intros r [].
  - intros r x Hx A _. apply nth_init in Hx. destruct Hx as (_ & _ & _ & _ & [[? _]|[_ E]]); [cbn; lia|]. rewrite E in A. discriminate.
  - unfold winv. cbn. reflexivity.
  - intros r p v [].
Qed.

(** A schedule in which nothing is published while a reader is between its first cursor load and its generation bump. *)
Fixpoint quiet s (sched : list (action V)) : Prop :=
  match sched with [] => True | a :: l => quietStep s a /\ quiet (step N s a) l end.

Lemma exec_Inv sched : forall s, Inv s -> quiet s sched -> Inv (exec N s sched).
Proof. induction sched as [|a l IH]; intros s H Q; [exact H|]. destruct Q as [Q1 Q2]. apply IH; [apply Inv_step; assumption|exact Q2]. Qed.

(** Readers that never attach after the start. *)
Lemma step_noattach s a : (forall r x, nth_error (rds s) r = Some x -> wasListed (ph x) = true /\ inWindow (ph x) = false) ->
  forall r x, nth_error (rds (step N s a)) r = Some x -> wasListed (ph x) = true /\ inWindow (ph x) = false.
Proof.
  intros H.
  assert (U : forall k y, wasListed (ph y) = true /\ inWindow (ph y) = false -> forall r x, nth_error (upd (rds s) k y) r = Some x -> wasListed (ph x) = true /\ inWindow (ph x) = false).
  { intros k y Hy r x Hx. apply nth_upd_inv in Hx. destruct Hx as [[_ ->]|[_ Hx]]; [exact Hy|eapply H; exact Hx]. }
  destruct a as [n| |v|k|r|r|r n|r j|r k]; cbn [step].
  - destruct (w s); auto. destruct (_ && _); auto.
  - unfold wstep. destruct (w s); auto.
    + destruct (_ =? _); auto.
    + destruct (nth_error (clist s) j); [destruct (nth_error (rds s) n0); auto|]. unfold decide. destruct (_ <? _); auto. destruct (_ <=? _); auto.
  - destruct (w s); auto. destruct (_ <? _); auto.
  - destruct (w s); auto. destruct (_ && _); auto.
  - destruct (nth_error (rds s) r) as [x|] eqn:Hx; auto. pose proof (H r x Hx) as [H1 H2]. unfold rstep.
    destruct (ph x) eqn:Ep; cbn in H1, H2; try discriminate; auto; try (apply U; cbn; auto; fail).
    + destruct (_ =? _); auto. apply U; cbn; auto.
    + destruct (_ =? _); apply U; cbn; auto.
  - destruct (live s r) as [x|] eqn:Hl; auto. apply live_Some in Hl. destruct Hl as [Hx Ep]. apply U. cbn. rewrite Ep. auto.
  - destruct (live s r) as [x|] eqn:Hl; auto. apply live_Some in Hl. destruct Hl as [Hx Ep]. destruct (_ && _); auto. apply U. cbn. rewrite Ep. auto.
  - destruct (live s r) as [x|] eqn:Hl; auto. destruct (_ && _); auto.
  - destruct (live s r) as [x|] eqn:Hl; auto. apply live_Some in Hl. destruct Hl as [Hx Ep]. destruct (_ && _); auto. apply U. cbn. rewrite Ep. auto.
Qed.

Lemma noattach_quiet sched : forall s, (forall r x, nth_error (rds s) r = Some x -> wasListed (ph x) = true /\ inWindow (ph x) = false) -> quiet s sched.
Proof.
  induction sched as [|a l IH]; intros s H; cbn [quiet]; [exact I|]. split; [|apply IH; intros r x; apply step_noattach, H].
  destruct a; cbn; auto. intros r x Hx. apply (H r x Hx).
Qed.

Lemma static_quiet na sched : quiet (init na 0) sched.
Proof.
  apply noattach_quiet. intros r x Hx. pose proof Hx as Hx2. apply nth_init in Hx. destruct Hx as (_ & _ & _ & _ & [[_ ->]|[L _]]); [cbn; auto|].
  assert (r < length (rds (init (V:=V) na 0)))%nat by (apply nth_error_Some; congruence). cbn [init rds] in H. rewrite app_length, !repeat_length in H. lia.
Qed.

(** *** Published positions never change. *)
Definition le s s' : Prop := pub s <= pub s' /\ (forall p, 0 <= p < pub s -> val s' p = val s p).
Lemma le_refl s : le s s. Proof. split; [lia|auto]. Qed.
Local Ltac triv := split; [apply Z.le_refl|intros; reflexivity].
Lemma le_step s a : Inv s -> le s (step N s a).
Proof.
  intros H. pose proof (I_w s H) as W. unfold winv in W. unfold le.
  destruct a as [n| |v|k|r|r|r n|r j|r k]; cbn [step]; try triv.
  - destruct (w s); try triv. destruct (_ && _); triv.
  - unfold wstep. destruct (w s); try triv.
    + destruct (_ =? _); triv.
    + destruct (nth_error (clist s) j); [destruct (nth_error (rds s) n0); triv|]. unfold decide. destruct (_ <? _); try triv. destruct (_ <=? _); triv.
  - destruct (w s); try triv. destruct (Z.ltb_spec i n); try triv. cbn. split; [lia|]. intros p Hp. apply fset_other. lia.
  - destruct (w s); try triv. destruct (_ && _) eqn:E; try triv. cbn. split; [lia|auto].
  - destruct (nth_error (rds s) r) as [x|]; [|triv]. unfold rstep. destruct (ph x); try triv; destruct (_ =? _); triv.
  - destruct (live s r); triv.
  - destruct (live s r); [|triv]. destruct (_ && _); triv.
  - destruct (live s r); [|triv]. destruct (_ && _); triv.
  - destruct (live s r); [|triv]. destruct (_ && _); triv.
Qed.
Lemma le_exec sched : forall s, Inv s -> quiet s sched -> le s (exec N s sched).
Proof.
  induction sched as [|a l IH]; intros s H Q; [apply le_refl|]. cbn [exec fold_left]. destruct Q as [Q1 Q2].
  pose proof (le_step s a H) as [L1 L2]. destruct (IH _ (Inv_step s a H Q1) Q2) as [L3 L4]. unfold exec in *. split; [lia|].
  intros p Hp. rewrite L4 by lia. apply L2, Hp.
Qed.

(** *** Statements *)
Lemma reads_right na nn sched sched2 r p v : let s := exec N (init na nn) sched in
  quiet (init na nn) sched -> quiet s sched2 ->
  In (r, p, v) (log s) -> 0 <= p < pub s /\ v <> None /\ v = val (exec N s sched2) p.
Proof.
  intros s Q Q2 Hl. pose proof (exec_Inv sched _ (Inv_init na nn) Q) as H. fold s in H. destruct (I_log s H r p v Hl) as [L1 L2].
  destruct (le_exec sched2 s H Q2) as [_ L]. split; [exact L1|]. split; [rewrite L2; apply (I_val s H p L1)|]. rewrite (L p L1). exact L2.
Qed.

Lemma write_safe na nn sched v r x : let s := exec N (init na nn) sched in quiet (init na nn) sched ->
  nth_error (rds s) r = Some x -> ph x = RLive ->
  forall p, loc x <= p < pub s -> mem (step N s (WPut v)) (p mod N) = mem s (p mod N) /\ mem s (p mod N) = val s p.
Proof.
  intros s Q Hx Ep p Hp. pose proof (exec_Inv sched _ (Inv_init na nn) Q) as H. fold s in H.
  destruct (I_p s H r x Hx) as [_ A]. unfold ainv in A. rewrite Ep in A. destruct (A eq_refl) as (A1 & A2 & A3). destruct (A3 ltac:(discriminate)) as (A4 & A5 & A6).
  split; [|apply A2; lia]. pose proof (I_w s H) as W. unfold winv in W. cbn [step]. destruct (w s); try reflexivity. destruct (Z.ltb_spec i n); [|reflexivity].
  cbn [mem]. rewrite calcIndex_mod. apply fset_other. intros E. apply mod_inj' in E; lia.
Qed.

Lemma room_bound na nn sched r x : let s := exec N (init na nn) sched in quiet (init na nn) sched ->
  nth_error (rds s) r = Some x -> ph x = RLive -> 0 <= cur x <= pub s /\ res s - cur x <= N /\ pub s - loc x <= N.
Proof.
  intros s Q Hx Ep. pose proof (exec_Inv sched _ (Inv_init na nn) Q) as H. fold s in H. pose proof (I_cur s H).
  destruct (I_p s H r x Hx) as [P A]. unfold ainv, pinv in *. rewrite Ep in *. destruct (A eq_refl) as (A1 & A2 & A3). destruct (A3 ltac:(discriminate)) as (A4 & A5 & A6). lia.
Qed.

End Proofs.
