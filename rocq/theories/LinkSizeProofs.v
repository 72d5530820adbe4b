(** Proofs about which edges get connected, buffer sizes, and ports without an edge. *)
From Coq Require Import ZArith NArith Bool Arith Lia String List.
From Coq Require Import ZifyBool ZifyNat ZifyN.
From Verif Require Import Base TopoModel EditModel EditSpec EditProofs LinkModel LinkSpec LinkProofs.
Import ListNotations.
Local Open Scope nat_scope.
Local Open Scope list_scope.

Definition outcome (env : Env) (bs : list GBlock) (e e' : LEdge) : Prop :=
  key e' = key e /\ (isWaiting e = false -> e' = e) /\ (isWaiting e = true -> (gstate (le e') = Connected <-> matching env bs (le e))).

Lemma apply_outcome env bs es e n e' n' : roomy env -> wf n -> (forall s, canAlloc env s = true) -> isWaiting e = true ->
  applyEdge env bs es e n = (e', n') -> wf n' /\ outcome env bs e e'.
Proof.
  intros HR W HA Hw H. unfold applyEdge in H.
  assert (Hno : forall s, s <> Connected -> ~ matching env bs (le e) -> outcome env bs e (withState s e)).
  { intros s Hs Hm. split; [reflexivity|]. split; [rewrite Hw; discriminate|]. intros _. cbn. tauto. }
  destruct (srcOf bs (le e)) as [p|] eqn:Ep; rewrite srcOf_end in Ep;
    [|injection H as <- <-; split; [exact W|apply Hno; [discriminate|intros (a & b & X & _); congruence]]].
  destruct (dstOf bs (le e)) as [q|] eqn:Eq; rewrite dstOf_end in Eq;
    [|injection H as <- <-; split; [exact W|apply Hno; [discriminate|intros (a & b & _ & X & _); congruence]]].
  destruct (Nat.eqb_spec (tyOf env p) (tyOf env q)) as [Et|Et]; cbn [negb] in H;
    [|injection H as <- <-; split; [exact W|apply Hno; [discriminate|intros (a & b & X & Y & Z & _); congruence]]].
  destruct (if existsb _ es then (n, true) else resizeBuffer env p (wantedSize bs es (le e)) n) as [n1 ok1] eqn:E1.
  assert (H1 : wf n1 /\ ok1 = true).
  { destruct (existsb _ es); [injection E1 as <- <-; auto|]. destruct (resize_spec _ _ _ _ _ _ W E1) as (A & _ & B & _). rewrite HA in B. auto. }
  destruct H1 as [W1 -> ].
  destruct (connectPorts_spec env p q n1 HR W1) as (W2 & F2 & Fl & Fk & Fs). destruct (connectPorts env p q n1) as [n2 ok2]. cbn [fst snd] in *.
  injection H as <- <-. split; [exact W2|]. split; [reflexivity|]. split; [rewrite Hw; discriminate|]. intros _. cbn. rewrite andb_true_r.
  rewrite Et, Nat.eqb_refl, andb_true_r in Fk. destruct (Nat.eqb_spec (kindOf env p) (kindOf env q)) as [Ek|Ek]; subst ok2.
  - split; [|reflexivity]. intros _. exists p, q. auto.
  - split; [discriminate|]. intros (a & b & X & Y & _ & Z). congruence.
Qed.

Lemma loop_outcome env bs rest pre n ok : roomy env -> wf n -> (forall s, canAlloc env s = true) ->
  exists rest', let '(es', n', ok') := connectLoop env bs pre rest n ok in
    es' = pre ++ rest' /\ Forall2 (outcome env bs) rest rest' /\
    (ok' = true <-> ok = true /\ Forall (fun e => isWaiting e = true -> matching env bs (le e)) rest).
Proof.
  intros HR W HA. revert pre n ok W. induction rest as [|e r IH]; intros pre n ok W; cbn [connectLoop].
  - exists []. rewrite app_nil_r. split; [reflexivity|]. split; [constructor|]. split; [auto|tauto].
  - destruct (isWaiting e) eqn:Ew.
    + destruct (applyEdge env bs (pre ++ e :: r) e n) as [e' n'] eqn:Ea.
      destruct (apply_outcome _ _ _ _ _ _ _ HR W HA Ew Ea) as [W' O'].
      destruct (IH (pre ++ [e']) n' (ok && isConn e') W') as (r' & Hr).
      destruct (connectLoop env bs (pre ++ [e']) r n' (ok && isConn e')) as [[es'' n''] ok'']. destruct Hr as (A & B & C).
      exists (e' :: r'). split; [rewrite A, <- app_assoc; reflexivity|]. split; [constructor; assumption|].
      rewrite C, andb_true_iff, isConn_true. destruct O' as (_ & _ & O'). specialize (O' Ew). split.
      * intros [[X Y] Z]. split; [exact X|]. constructor; [intros _; apply O'; exact Y|exact Z].
      * intros [X Y]. pose proof (Forall_inv Y) as Y1; pose proof (Forall_inv_tail Y) as Y2; cbn beta in Y1. split; [split; [exact X|]|exact Y2]. apply O', Y1. exact Ew.
    + destruct (IH (pre ++ [e]) n ok W) as (r' & Hr). destruct (connectLoop env bs (pre ++ [e]) r n ok) as [[es'' n''] ok'']. destruct Hr as (A & B & C).
      exists (e :: r'). split; [rewrite A, <- app_assoc; reflexivity|]. split.
      * constructor; [|exact B]. split; [reflexivity|]. split; [reflexivity|]. congruence.
      * rewrite C. split; intros [X Y]; (split; [exact X|]); [constructor; [congruence|exact Y]|inversion Y; assumption].
Qed.

(** ** Sizes *)

Lemma fold_max_ge ref es m : (m <= fold_left (fun m e => if sameSource ref e then match gmin e with Some k => N.max m k | None => m end else m) es m)%N.
Proof.
  revert m. induction es as [|e r IH]; intros m; cbn; [lia|]. etransitivity; [|apply IH]. destruct (sameSource ref e); [|lia]. destruct (gmin e); lia.
Qed.

Lemma fold_max_in ref es m e k : In e es -> sameSource ref e = true -> gmin e = Some k ->
  (k <= fold_left (fun m e => if sameSource ref e then match gmin e with Some k => N.max m k | None => m end else m) es m)%N.
Proof.
  revert m. induction es as [|x r IH]; intros m; cbn; [intros []|]. intros [ -> |Hi] Hs Hg.
  - rewrite Hs, Hg. etransitivity; [|apply fold_max_ge]. lia.
  - apply IH; assumption.
Qed.

Definition big (bs : list GBlock) (p : nat) (es : list LEdge) (n : Net) : Prop :=
  (exists e, In e es /\ gstate (le e) = Connected /\ outEnd bs (gsrc (le e)) (gsrcPort (le e)) = Some p) ->
  forall f k, In f es -> outEnd bs (gsrc (le f)) (gsrcPort (le f)) = Some p -> gmin (le f) = Some k -> (k <= outSize n p)%N.

Lemma outSize_frame n n' (P Q : nat -> Prop) p : wf n -> frame n n' P Q -> ~ P p -> outSize n' p = outSize n p.
Proof.
  intros [W _] [F1 _ F3] Hp. unfold outSize. rewrite F1 by exact Hp. destruct (lookupP p (nout n)) as [b|] eqn:E; [|reflexivity].
  apply size_ext; [exact F3|eapply W; exact E].
Qed.

Lemma in_mid {A} (pre : list A) e e' r x : In x (pre ++ e' :: r) -> x = e' \/ In x (pre ++ e :: r).
Proof. intros H. apply in_app_or in H as [H|[H|H]]; [right; apply in_or_app; auto|auto|right; apply in_or_app; cbn; auto]. Qed.

Lemma big_keep bs p pre e e' r n n' : (forall k, outSize n p = k -> outSize n' p = k) -> key e' = key e ->
  (gstate (le e') = Connected -> outEnd bs (gsrc (le e')) (gsrcPort (le e')) = Some p ->
     exists x, In x (pre ++ e :: r) /\ gstate (le x) = Connected /\ outEnd bs (gsrc (le x)) (gsrcPort (le x)) = Some p) ->
  big bs p (pre ++ e :: r) n -> big bs p (pre ++ e' :: r) n'.
Proof.
  intros Hs Hk Hc HB (x & Hx & X1 & X2) f k Hf F1 F2. rewrite (Hs _ eq_refl).
  assert (Hex : exists x, In x (pre ++ e :: r) /\ gstate (le x) = Connected /\ outEnd bs (gsrc (le x)) (gsrcPort (le x)) = Some p).
  { destruct (in_mid pre e e' r x Hx) as [ -> |Hi]; [apply Hc; assumption|]. exists x. auto. }
  destruct (in_mid pre e e' r f Hf) as [ -> |Hi]; [|eapply HB; eauto].
  apply (HB Hex e k); [apply in_or_app; cbn; auto| |]; unfold key in Hk; injection Hk; intros; congruence.
Qed.

Lemma apply_big env bs pre e r n e' n' p : roomy env -> plainWiring bs (pre ++ e :: r) -> isWaiting e = true -> inv bs (pre ++ e :: r) n ->
  big bs p (pre ++ e :: r) n -> applyEdge env bs (pre ++ e :: r) e n = (e', n') -> big bs p (pre ++ e' :: r) n'.
Proof.
  intros HR HP Hw HI HB H. pose proof (apply_spec env bs pre e r n e' n' HR HP Hw HI H) as (_ & Hk & _).
  destruct HI as (W & T & Pt). apply isWaiting_true in Hw. unfold applyEdge in H.
  assert (Hno : forall s, s <> Connected -> big bs p (pre ++ withState s e :: r) n).
  { intros s Hs. apply (big_keep bs p pre e (withState s e) r n n); [auto|reflexivity| |exact HB]. cbn. intros X. contradiction. }
  destruct (srcOf bs (le e)) as [a|] eqn:Ep; [|injection H as <- <-; apply Hno; discriminate].
  destruct (dstOf bs (le e)) as [q|] eqn:Eq; [|injection H as <- <-; apply Hno; discriminate].
  rewrite srcOf_end in Ep.
  destruct (negb (Nat.eqb (tyOf env a) (tyOf env q))); [injection H as <- <-; apply Hno; discriminate|].
  set (es := pre ++ e :: r) in *. destruct (existsb (fun x => sameSource (le e) (le x) && isConn x) es) eqn:Eh.
  - apply existsb_exists in Eh as (f & Hin & Hb). apply andb_prop in Hb as [Hb1 Hb2]. apply sameSource_true in Hb1 as [B1 B2]. apply isConn_true in Hb2.
    destruct (connectPorts_spec env a q n HR W) as (W2 & F2 & Fl & Fk & Fs). destruct (connectPorts env a q n) as [n2 ok2]. cbn [fst snd] in *.
    assert (Hs : (0 < outSize n a)%N).
    { destruct (T f Hin Hb2) as (pf & qf & G1 & G2 & (b & G3 & G4 & G5)). rewrite <- B1, <- B2, Ep in G1. injection G1 as <-.
      unfold outSize. rewrite G3. exact G5. }
    destruct (Fs Hs) as [S1 S2]. injection H as He' Hn'. subst n'.
    apply big_keep with (e := e) (n := n); [|exact Hk| |exact HB].
    + intros k <-. unfold outSize, sizeOf. rewrite S1, S2. reflexivity.
    + intros Hc Ho. exists f. split; [exact Hin|]. split; [exact Hb2|]. rewrite <- Ho. rewrite <- B1, <- B2. unfold key in Hk. injection Hk; intros. congruence.
  - destruct (resizeBuffer env a (wantedSize bs es (le e)) n) as [n1 ok1] eqn:E1.
    destruct (resize_spec _ _ _ _ _ _ W E1) as (W1 & F1 & _ & Hsz).
    destruct (connectPorts_spec env a q n1 HR W1) as (W2 & F2 & Fl & Fk & Fs). destruct (connectPorts env a q n1) as [n2 ok2] eqn:E2. cbn [fst snd] in *.
    injection H as He' Hn'. subst n'. destruct (Nat.eq_dec a p) as [ -> |Hne].
    + intros (x & Hx & X1 & X2) f k Hf Y1 Y2.
      assert (Hx' : x = e').
      { destruct (in_mid pre e e' r x Hx) as [ -> |Hi]; [reflexivity|]. exfalso.
        assert (existsb (fun x => sameSource (le e) (le x) && isConn x) es = true); [|congruence]. apply existsb_exists. exists x. split; [exact Hi|].
        apply andb_true_iff. split; [|apply isConn_true; exact X1]. apply sameSource_true. destruct HP as [HS _].
        apply (HS e x p); auto. apply in_or_app. cbn. auto. }
      assert (Hok : ok2 = true /\ ok1 = true).
      { subst x e'. cbn in X1. destruct ok2, ok1; auto; discriminate. }
      destruct Hok as [ -> -> ]. specialize (Hsz eq_refl). destruct (Fl eq_refl) as [_ Hm].
      assert (Hk1 : (k <= wantedSize bs es (le e))%N).
      { assert (Hf2 : exists g, In g es /\ key g = key f).
        { destruct (in_mid pre e e' r f Hf) as [ -> |Hi]; [exists e; split; [apply in_or_app; cbn; auto|auto]|eauto]. }
        destruct Hf2 as (g & Hg & Kg). unfold wantedSize. apply fold_max_in with (e := le g); [apply in_or_app; left; apply in_map; exact Hg| |].
        - apply sameSource_true. destruct HP as [HS _]. apply (HS e g p); [apply in_or_app; cbn; auto|exact Hg|exact Ep|].
          destruct (key_src _ _ Kg) as [K1 K2]. rewrite K1, K2. exact Y1.
        - unfold key in Kg. injection Kg; intros. congruence. }
      rewrite Hm. unfold materialise. pose proof (HR (wantedSize bs es (le e))) as HRw. destruct (N.eqb_spec (outSize n1 p) 0); lia.
    + apply big_keep with (e := e) (n := n); [|exact Hk| |exact HB].
      * intros k <-. rewrite (outSize_frame n1 n2 _ _ p W1 F2) by congruence. apply (outSize_frame n n1 _ _ p W F1). congruence.
      * intros Hc Ho. exfalso. apply Hne. destruct (key_src _ _ Hk) as [K1 K2]. rewrite K1, K2 in Ho. congruence.
Qed.

Lemma loop_big env bs rest pre n ok p : roomy env -> plainWiring bs (pre ++ rest) -> inv bs (pre ++ rest) n -> big bs p (pre ++ rest) n ->
  let '(es', n', ok') := connectLoop env bs pre rest n ok in big bs p es' n'.
Proof.
  intros HR. revert pre n ok. induction rest as [|e r IH]; intros pre n ok HP HI HB; cbn [connectLoop]; [rewrite app_nil_r in *; exact HB|].
  destruct (isWaiting e) eqn:Ew.
  - destruct (applyEdge env bs (pre ++ e :: r) e n) as [e' n'] eqn:Ea.
    destruct (apply_spec env bs pre e r n e' n' HR HP Ew HI Ea) as (I' & K' & W').
    assert (EK : map key ((pre ++ [e']) ++ r) = map key (pre ++ e :: r)) by (rewrite <- app_assoc, !map_app; cbn; rewrite K'; reflexivity).
    apply IH.
    + eapply plain_key; [symmetry; exact EK|exact HP].
    + rewrite <- app_assoc. exact I'.
    + rewrite <- app_assoc. eapply apply_big; eassumption.
  - apply IH; rewrite <- app_assoc; assumption.
Qed.

Lemma materialise_keeps env p q n : roomy env -> wf n -> (0 < outSize n q)%N -> outSize (materialise env p n) q = outSize n q.
Proof.
  intros HR W Hq. destruct (materialise_spec env p n HR W) as (A & B & _ & _ & E). destruct (Nat.eq_dec p q) as [ <- |Hne].
  - rewrite E by lia. reflexivity.
  - apply (outSize_frame n _ _ _ q W B). congruence.
Qed.

Lemma materialise_all_size env ps n q : roomy env -> wf n ->
  wf (fold_left (fun m p => materialise env p m) ps n) /\
  ((0 < outSize n q)%N -> outSize (fold_left (fun m p => materialise env p m) ps n) q = outSize n q) /\
  (In q ps -> (0 < outSize (fold_left (fun m p => materialise env p m) ps n) q)%N).
Proof.
  intros HR. revert n. induction ps as [|p r IH]; cbn [fold_left]; intros n W; [split; [exact W|split; [reflexivity|intros []]]|].
  destruct (materialise_spec env p n HR W) as (A & _ & _ & D & _). destruct (IH (materialise env p n) A) as (I1 & I2 & I3). split; [exact I1|]. split.
  - intros Hq. rewrite I2; rewrite materialise_keeps; auto.
  - intros [<-|Hq]; [rewrite I2; exact D|apply I3; exact Hq].
Qed.

Lemma pending_big env bs es n p : roomy env -> plainWiring bs es -> inv bs es n -> big bs p es n ->
  let '(es', n', ok') := connectPending env bs es n in big bs p es' n'.
Proof.
  intros HR HP HI HB. unfold connectPending. pose proof (loop_big env bs es [] n true p HR HP HI HB) as L.
  pose proof (loop_spec env bs es [] n true HR HP HI (fun e (F : In e []) => match F with end)) as L2.
  destruct (connectLoop env bs [] es n true) as [[es' n'] ok]. destruct L2 as ((W' & T' & _) & _ & _).
  intros Hex f k Hf F1 F2. destruct (materialise_all_size env (flat_map (fun b => flat_map physOf (gouts b)) bs) n' p HR W') as (_ & M & _).
  rewrite M; [exact (L Hex f k Hf F1 F2)|]. destruct Hex as (x & X1 & X2 & X3). destruct (T' x X1 X2) as (a & b & Y1 & Y2 & (c & Z1 & Z2 & Z3)).
  rewrite X3 in Y1. injection Y1 as <-. unfold outSize. rewrite Z1. exact Z3.
Qed.

Lemma apply_wf env bs es e n e' n' : roomy env -> wf n -> applyEdge env bs es e n = (e', n') -> wf n'.
Proof.
  intros HR W H. unfold applyEdge in H. destruct (srcOf bs (le e)) as [p|]; [|injection H as <- <-; exact W].
  destruct (dstOf bs (le e)) as [q|]; [|injection H as <- <-; exact W]. destruct (negb _); [injection H as <- <-; exact W|].
  destruct (if existsb _ es then (n, true) else resizeBuffer env p (wantedSize bs es (le e)) n) as [n1 ok1] eqn:E1.
  assert (W1 : wf n1) by (destruct (existsb _ es); [injection E1 as <- <-; exact W|exact (proj1 (resize_spec _ _ _ _ _ _ W E1))]).
  destruct (connectPorts_spec env p q n1 HR W1) as (W2 & _). destruct (connectPorts env p q n1) as [n2 ok2]. injection H as <- <-. exact W2.
Qed.

Lemma loop_wf env bs rest pre n ok : roomy env -> wf n -> wf (snd (fst (connectLoop env bs pre rest n ok))).
Proof.
  intros HR. revert pre n ok. induction rest as [|e r IH]; intros pre n ok W; cbn [connectLoop]; [exact W|].
  destruct (isWaiting e); [|apply IH; exact W]. destruct (applyEdge env bs (pre ++ e :: r) e n) as [e' n'] eqn:Ea. apply IH. eapply apply_wf; eassumption.
Qed.

Lemma pending_outputs env bs es n b d p : roomy env -> wf n -> In b bs -> In d (gouts b) -> In p (physOf d) ->
  (0 < outSize (snd (fst (connectPending env bs es n))) p)%N.
Proof.
  intros HR W Hb Hd Hp. unfold connectPending. pose proof (loop_wf env bs es [] n true HR W) as L.
  destruct (connectLoop env bs [] es n true) as [[es' n'] ok]. cbn [fst snd] in *.
  apply (materialise_all_size env _ n' p HR L). apply in_flat_map. exists b. split; [exact Hb|]. apply in_flat_map. exists d. auto.
Qed.
