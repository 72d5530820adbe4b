(** Proofs about connecting edges. *)
From Coq Require Import ZArith NArith Bool Arith Lia String List.
From Coq Require Import ZifyBool ZifyNat ZifyN.
From Verif Require Import Base TopoModel EditModel EditSpec EditProofs LinkModel LinkSpec.
Import ListNotations.
Local Open Scope nat_scope.
Local Open Scope list_scope.

Lemma lookup_drop p q l : lookupP q (dropP p l) = if Nat.eqb q p then None else lookupP q l.
Proof.
  unfold dropP. induction l as [|[a b] r IH]; cbn; [destruct (Nat.eqb q p); reflexivity|].
  destruct (Nat.eqb_spec a p) as [E|E]; cbn; rewrite IH; destruct (Nat.eqb_spec q p) as [F|F]; subst.
  - reflexivity.
  - destruct (Nat.eqb_spec p q); [congruence|reflexivity].
  - destruct (Nat.eqb_spec a p); [congruence|reflexivity].
  - reflexivity.
Qed.

Lemma lookup_put p b q l : lookupP q (putP p b l) = if Nat.eqb q p then Some b else lookupP q l.
Proof.
  unfold putP. cbn. rewrite lookup_drop. rewrite (Nat.eqb_sym q p). destruct (Nat.eqb p q); reflexivity.
Qed.

Definition wf (n : Net) : Prop :=
  (forall p b, lookupP p (nout n) = Some b -> b < List.length (nsize n)) /\ (forall q b, lookupP q (nin n) = Some b -> b < List.length (nsize n)).

(** Only output [p] and input [q] may have changed, and buffers are only added. *)
Record frame (n n' : Net) (p q : nat -> Prop) : Prop := {
  fr_out : forall x, ~ p x -> lookupP x (nout n') = lookupP x (nout n);
  fr_in : forall x, ~ q x -> lookupP x (nin n') = lookupP x (nin n);
  fr_size : exists l, nsize n' = nsize n ++ l }.

Lemma frame_refl n p q : frame n n p q.
Proof. split; auto. exists []. rewrite app_nil_r. reflexivity. Qed.

Lemma frame_trans a b c p q : frame a b p q -> frame b c p q -> frame a c p q.
Proof.
  intros [A1 A2 [l A3]] [B1 B2 [m B3]]. split; intros; [rewrite B1, A1; auto|rewrite B2, A2; auto|].
  exists (l ++ m). rewrite B3, A3, app_assoc. reflexivity.
Qed.

Lemma frame_weaken a b (p p' q q' : nat -> Prop) : (forall x, p x -> p' x) -> (forall x, q x -> q' x) -> frame a b p q -> frame a b p' q'.
Proof. intros Hp Hq [A1 A2 A3]. split; auto. Qed.

Lemma size_ext n n' b : (exists l, nsize n' = nsize n ++ l) -> b < List.length (nsize n) -> sizeOf n' b = sizeOf n b.
Proof. intros [l E] Hb. unfold sizeOf. rewrite E, app_nth1; auto. Qed.

Lemma flows_keep n n' (P Q : nat -> Prop) x y : wf n -> frame n n' P Q -> ~ P x -> ~ Q y -> flows n x y -> flows n' x y.
Proof.
  intros [W1 W2] [F1 F2 F3] Hx Hy (b & E1 & E2 & E3). exists b. rewrite F1, F2 by assumption. split; [exact E1|]. split; [exact E2|].
  rewrite (size_ext n n'); [exact E3|exact F3|eapply W1; exact E1].
Qed.

Lemma newOut_spec env p s n : wf n -> wf (newOut env p s n) /\ frame n (newOut env p s n) (eq p) (fun _ => False) /\
  nin (newOut env p s n) = nin n /\ outSize (newOut env p s n) p = capOf env s /\ lookupP p (nout (newOut env p s n)) = Some (List.length (nsize n)).
Proof.
  intros [W1 W2]. unfold newOut. split; [|split; [|split; [|split]]]; cbn [nout nin nsize].
  - split; cbn [nout nin nsize]; intros x b; rewrite ?lookup_put, app_length; cbn [List.length].
    + destruct (Nat.eqb x p); [intros H; injection H as <-; lia|intros H; apply W1 in H; lia].
    + intros H. apply W2 in H. lia.
  - split; cbn [nout nin nsize].
    + intros x Hx. rewrite lookup_put. destruct (Nat.eqb_spec x p); [congruence|reflexivity].
    + reflexivity.
    + eexists. reflexivity.
  - reflexivity.
  - unfold outSize. cbn [nout]. rewrite lookup_put, Nat.eqb_refl. unfold sizeOf. cbn [nsize]. rewrite app_nth2, Nat.sub_diag by lia. reflexivity.
  - rewrite lookup_put, Nat.eqb_refl. reflexivity.
Qed.

Lemma materialise_spec env p n : roomy env -> wf n -> wf (materialise env p n) /\ frame n (materialise env p n) (eq p) (fun _ => False) /\
  nin (materialise env p n) = nin n /\ (0 < outSize (materialise env p n) p)%N /\ (outSize n p <> 0%N -> materialise env p n = n).
Proof.
  intros HR W. unfold materialise. destruct (N.eqb_spec (outSize n p) 0) as [E|E].
  - destruct (newOut_spec env p kDefaultBufferSize n W) as (A & B & C & D & _). split; [exact A|]. split; [exact B|]. split; [exact C|].
    split; [rewrite D; specialize (HR kDefaultBufferSize); unfold kDefaultBufferSize in *; lia|congruence].
  - split; [exact W|]. split; [apply frame_refl|]. split; [reflexivity|]. split; [lia|reflexivity].
Qed.

Lemma outSize_lookup n p : (0 < outSize n p)%N -> exists b, lookupP p (nout n) = Some b /\ (0 < sizeOf n b)%N.
Proof. unfold outSize. destruct (lookupP p (nout n)) as [b|]; [eauto|lia]. Qed.

Lemma connectPorts_spec env p q n : roomy env -> wf n ->
  wf (fst (connectPorts env p q n)) /\ frame n (fst (connectPorts env p q n)) (eq p) (eq q) /\
  (snd (connectPorts env p q n) = true -> flows (fst (connectPorts env p q n)) p q /\ outSize (fst (connectPorts env p q n)) p = outSize (materialise env p n) p) /\
  (snd (connectPorts env p q n) = (Nat.eqb (kindOf env p) (kindOf env q) && Nat.eqb (tyOf env p) (tyOf env q))) /\
  (0 < outSize n p -> nout (fst (connectPorts env p q n)) = nout n /\ nsize (fst (connectPorts env p q n)) = nsize n)%N.
Proof.
  intros HR W. unfold connectPorts.
  destruct (Nat.eqb (kindOf env p) (kindOf env q)) eqn:E1; cbn [negb andb fst snd];
    [|split; [exact W|split; [apply frame_refl|split; [discriminate|split; [reflexivity|auto]]]]].
  destruct (Nat.eqb (tyOf env p) (tyOf env q)) eqn:E2; cbn [negb andb fst snd];
    [|split; [exact W|split; [apply frame_refl|split; [discriminate|split; [reflexivity|auto]]]]].
  destruct (materialise_spec env p n HR W) as ((A1 & A2) & B & C & D & F).
  destruct (outSize_lookup _ _ D) as (b & G1 & G2). rewrite G1. cbn [fst snd].
  split; [|split; [|split; [|split]]].
  - split; cbn [nout nin nsize]; [exact A1|]. intros x c. rewrite lookup_put. destruct (Nat.eqb x q); [intros H; injection H as <-; eapply A1; exact G1|apply A2].
  - destruct B as [B1 B2 B3]. split; cbn [nout nin nsize]; [exact B1| |exact B3].
    intros x Hx. rewrite lookup_put. destruct (Nat.eqb_spec x q); [congruence|]. apply B2. auto.
  - intros _. split.
    + exists b. cbn [nout nin]. rewrite lookup_put, Nat.eqb_refl. split; [exact G1|]. split; [reflexivity|exact G2].
    + reflexivity.
  - reflexivity.
  - intros H. cbn [nout nsize]. rewrite F by lia. auto.
Qed.

Lemma srcOf_end bs e : srcOf bs e = outEnd bs (gsrc e) (gsrcPort e).
Proof. reflexivity. Qed.
Lemma dstOf_end bs e : dstOf bs e = inEnd bs (gdst e) (gdstPort e).
Proof. reflexivity. Qed.

Lemma portEq_true a b : portEq a b = true <-> a = b.
Proof.
  destruct a as [t s|x], b as [t' s'|y]; cbn; try (split; [discriminate|intros H; discriminate]).
  - rewrite andb_true_iff, N.eqb_eq. unfold subEq. destruct s, s'; rewrite ?N.eqb_eq; split; try (intros [? ?]; congruence); intros H; injection H; intros; subst; auto; discriminate.
  - rewrite String.eqb_eq. split; congruence.
Qed.

Lemma sameSource_true a b : sameSource a b = true <-> gsrc a = gsrc b /\ gsrcPort a = gsrcPort b.
Proof. unfold sameSource. rewrite andb_true_iff, Nat.eqb_eq, portEq_true. reflexivity. Qed.

Lemma isConn_true e : isConn e = true <-> gstate (le e) = Connected.
Proof. unfold isConn. destruct (gstate (le e)); split; congruence. Qed.

Lemma isWaiting_true e : isWaiting e = true <-> gstate (le e) = Waiting.
Proof. unfold isWaiting. destruct (gstate (le e)); split; congruence. Qed.

(** The fixed part of an edge. *)
Definition key (e : LEdge) := (gsrc (le e), gsrcPort (le e), gdst (le e), gdstPort (le e), gmin (le e)).

Lemma key_src e f : key e = key f -> gsrc (le e) = gsrc (le f) /\ gsrcPort (le e) = gsrcPort (le f).
Proof. unfold key. intros H. injection H. auto. Qed.
Lemma key_dst e f : key e = key f -> gdst (le e) = gdst (le f) /\ gdstPort (le e) = gdstPort (le f).
Proof. unfold key. intros H. injection H. auto. Qed.

Lemma plain_key bs es es' : map key es = map key es' -> plainWiring bs es -> plainWiring bs es'.
Proof.
  intros E [H1 H2]. assert (Hb : forall e', In e' es' -> exists e, In e es /\ key e = key e').
  { intros e' He. apply (in_map key) in He. rewrite <- E in He. apply in_map_iff in He as (e & Ek & Hi). eauto. }
  split.
  - intros e' f' p He Hf Pe Pf. destruct (Hb e' He) as (e & Ie & Ke). destruct (Hb f' Hf) as (f & If & Kf).
    destruct (key_src _ _ Ke) as [K1 K2]. destruct (key_src _ _ Kf) as [K3 K4]. rewrite <- K1, <- K2 in *. rewrite <- K3, <- K4 in *. eapply H1; eassumption.
  - unfold oneFeeder in *. clear H1 Hb. revert es' E. induction H2 as [|e r Hf _ IH]; intros [|e' r'] E; cbn [map] in E; try discriminate; [constructor|].
    assert (Ek := f_equal (hd (key e)) E). assert (Er := f_equal (@tl _) E). cbn [hd tl] in Ek, Er. clear E.
    constructor; [|apply IH; exact Er]. rewrite Forall_forall in *. intros f' Hf' q.
    apply (in_map key) in Hf'. rewrite <- Er in Hf'. apply in_map_iff in Hf' as (f & Kf & If).
    destruct (key_dst _ _ Ek) as [K1 K2]. destruct (key_dst _ _ Kf) as [K3 K4]. rewrite <- K1, <- K2, <- K3, <- K4. apply Hf. exact If.
Qed.

Lemma feeder_mid bs pre e r f q : oneFeeder bs (pre ++ e :: r) -> In f pre \/ In f r ->
  inEnd bs (gdst (le e)) (gdstPort (le e)) = Some q -> inEnd bs (gdst (le f)) (gdstPort (le f)) = Some q -> False.
Proof.
  unfold oneFeeder. intros H Hf He Hg. induction pre as [|x pre IH].
  - cbn in H. inversion H as [|? ? H1 H2]; subst. destruct Hf as [[]|Hf]. rewrite Forall_forall in H1. eapply H1; eassumption.
  - cbn in H. inversion H as [|? ? H1 H2]; subst. destruct Hf as [[ -> |Hf]|Hf].
    + rewrite Forall_forall in H1. apply (H1 e) with (q := q); [apply in_or_app; right; left; reflexivity|assumption|assumption].
    + apply IH; auto.
    + apply IH; auto.
Qed.

Definition inv (bs : list GBlock) (es : list LEdge) (n : Net) : Prop :=
  wf n /\ truthful bs es n /\ (forall e, In e es -> gstate (le e) = Connected -> lptr e = outEnd bs (gsrc (le e)) (gsrcPort (le e))).

Lemma sane_inv bs es n : sane bs es n /\ truthful bs es n <-> inv bs es n.
Proof.
  unfold inv, wf. split.
  - intros [[A B C] D]. auto.
  - intros [[A B] [C D]]. split; [split; auto|exact C].
Qed.

Lemma resize_spec env p s n n1 ok : wf n -> resizeBuffer env p s n = (n1, ok) ->
  wf n1 /\ frame n n1 (eq p) (fun _ => False) /\ (ok = canAlloc env s) /\ (ok = true -> outSize n1 p = capOf env s).
Proof.
  intros W. unfold resizeBuffer. destruct (canAlloc env s); intros H; injection H as <- <-.
  - destruct (newOut_spec env p s n W) as (A & B & C & D & _). auto.
  - split; [exact W|]. split; [apply frame_refl|]. split; [reflexivity|discriminate].
Qed.

(** One edge. *)
Lemma apply_spec env bs pre e r n e' n' : roomy env -> plainWiring bs (pre ++ e :: r) -> isWaiting e = true -> inv bs (pre ++ e :: r) n ->
  applyEdge env bs (pre ++ e :: r) e n = (e', n') ->
  inv bs (pre ++ e' :: r) n' /\ key e' = key e /\ isWaiting e' = false.
Proof.
  intros HR [HS HF] Hw (W & T & Pt) H. apply isWaiting_true in Hw. unfold applyEdge in H.
  assert (Hno : forall s, s <> Connected -> s <> Waiting -> inv bs (pre ++ withState s e :: r) n /\ key (withState s e) = key e /\ isWaiting (withState s e) = false).
  { intros s Hs Hs2. split; [|split; [reflexivity|cbn; unfold isWaiting; cbn; destruct s; congruence]]. split; [exact W|].
    assert (Hi : forall x, In x (pre ++ withState s e :: r) -> gstate (le x) = Connected -> In x (pre ++ e :: r)).
    { intros x Hx Hc. apply in_app_or in Hx as [Hx|[<-|Hx]]; [apply in_or_app; auto|cbn in Hc; congruence|apply in_or_app; cbn; auto]. }
    split; intros x Hx Hc; [apply T|apply Pt]; auto. }
  destruct (srcOf bs (le e)) as [p|] eqn:Ep; [|injection H as <- <-; apply Hno; discriminate].
  destruct (dstOf bs (le e)) as [q|] eqn:Eq; [|injection H as <- <-; apply Hno; discriminate].
  rewrite srcOf_end in Ep. rewrite dstOf_end in Eq.
  destruct (negb (Nat.eqb (tyOf env p) (tyOf env q))); [injection H as <- <-; apply Hno; discriminate|].
  set (es := pre ++ e :: r) in *. set (has := existsb (fun x => sameSource (le e) (le x) && isConn x) es) in *.
  assert (Hoth : forall f, In f pre \/ In f r -> gstate (le f) = Connected -> exists pf qf, outEnd bs (gsrc (le f)) (gsrcPort (le f)) = Some pf /\
            inEnd bs (gdst (le f)) (gdstPort (le f)) = Some qf /\ flows n pf qf /\ qf <> q /\ (has = false -> pf <> p)).
  { intros f Hf Hc. assert (Hin : In f es) by (apply in_or_app; cbn; tauto).
    destruct (T f Hin Hc) as (pf & qf & F1 & F2 & F3). exists pf, qf. split; [exact F1|]. split; [exact F2|]. split; [exact F3|]. split.
    - intros ->. exact (feeder_mid bs pre e r f q HF Hf Eq F2).
    - intros Hh ->. unfold has in Hh. assert (existsb (fun x => sameSource (le e) (le x) && isConn x) es = true); [|congruence].
      apply existsb_exists. exists f. split; [exact Hin|]. apply andb_true_iff. split; [|apply isConn_true; exact Hc].
      apply sameSource_true. apply (HS e f p); auto. apply in_or_app. cbn. auto. }
  destruct (if has then (n, true) else resizeBuffer env p (wantedSize bs es (le e)) n) as [n1 ok1] eqn:E1.
  assert (F1 : wf n1 /\ frame n n1 (fun x => has = false /\ p = x) (fun _ => False)).
  { destruct has.
    - injection E1 as <- <-. split; [exact W|apply frame_refl].
    - destruct (resize_spec _ _ _ _ _ _ W E1) as (A & B & _). split; [exact A|]. eapply frame_weaken; [| |exact B]; cbn; auto. }
  destruct F1 as [W1 F1].
  destruct (connectPorts_spec env p q n1 HR W1) as (W2 & F2 & Fl & Fk & Fs). destruct (connectPorts env p q n1) as [n2 ok2]. cbn [fst snd] in *.
  injection H as <- <-. split; [|split; [reflexivity|cbn; destruct (ok2 && ok1); reflexivity]].
  assert (Hp : has = true -> (0 < outSize n p)%N).
  { unfold has. intros Hh. apply existsb_exists in Hh as (f & Hin & Hb). apply andb_prop in Hb as [Hb1 Hb2]. apply sameSource_true in Hb1 as [B1 B2].
    apply isConn_true in Hb2. destruct (T f Hin Hb2) as (pf & qf & G1 & G2 & (b & G3 & G4 & G5)).
    rewrite <- B1, <- B2, Ep in G1. injection G1 as <-. unfold outSize. rewrite G3. exact G5. }
  split; [exact W2|].
  assert (Hkeep : forall f, In f pre \/ In f r -> gstate (le f) = Connected -> carries bs n2 (le f)).
  { intros f Hf Hc. destruct (Hoth f Hf Hc) as (pf & qf & G1 & G2 & G3 & G4 & G5). exists pf, qf. split; [exact G1|]. split; [exact G2|].
    assert (Fa : flows n1 pf qf) by (apply (flows_keep _ _ _ _ _ _ W F1); [intros [X Y]; apply (G5 X); auto|tauto|exact G3]).
    destruct has eqn:Eh.
    - injection E1 as <- <-. destruct (Fs (Hp eq_refl)) as [S1 S2]. destruct G3 as (b & K1 & K2 & K3). exists b. unfold sizeOf. rewrite S1, S2.
      split; [exact K1|]. split; [|exact K3]. destruct F2 as [_ F2 _]. rewrite F2 by congruence. exact K2.
    - apply (flows_keep _ _ _ _ _ _ W1 F2); [intros X; apply G5; congruence|congruence|exact Fa]. }
  split.
  - intros f Hf Hc. apply in_app_or in Hf as [Hf|[<-|Hf]]; [apply Hkeep; auto| |apply Hkeep; auto]. cbn [le] in *.
    cbn [gstate setState] in Hc. destruct ok2 eqn:E2; [|discriminate].
    exists p, q. cbn [gsrc gsrcPort gdst gdstPort setState]. split; [exact Ep|]. split; [exact Eq|]. apply Fl. reflexivity.
  - intros f Hf Hc. apply in_app_or in Hf as [Hf|[<-|Hf]].
    + apply Pt; [apply in_or_app; auto|exact Hc].
    + cbn. symmetry. exact Ep.
    + apply Pt; [apply in_or_app; cbn; auto|exact Hc].
Qed.

Lemma loop_spec env bs rest pre n ok : roomy env -> plainWiring bs (pre ++ rest) -> inv bs (pre ++ rest) n ->
  (forall e, In e pre -> isWaiting e = false) ->
  let '(es', n', ok') := connectLoop env bs pre rest n ok in
  inv bs es' n' /\ map key es' = map key (pre ++ rest) /\ (forall e, In e es' -> isWaiting e = false).
Proof.
  intros HR. revert pre n ok. induction rest as [|e r IH]; intros pre n ok HP HI HW; cbn [connectLoop].
  - rewrite app_nil_r in *. auto.
  - destruct (isWaiting e) eqn:Ew.
    + destruct (applyEdge env bs (pre ++ e :: r) e n) as [e' n'] eqn:Ea.
      destruct (apply_spec env bs pre e r n e' n' HR HP Ew HI Ea) as (I' & K' & W').
      assert (EK : map key ((pre ++ [e']) ++ r) = map key (pre ++ e :: r)) by (rewrite <- app_assoc, !map_app; cbn; rewrite K'; reflexivity).
      specialize (IH (pre ++ [e']) n' (ok && isConn e')).
      destruct (connectLoop env bs (pre ++ [e']) r n' (ok && isConn e')) as [[es'' n''] ok'']. destruct IH as (A & B & C).
      * eapply plain_key; [symmetry; exact EK|exact HP].
      * rewrite <- app_assoc. exact I'.
      * intros x Hx. apply in_app_or in Hx as [Hx|[<-|[]]]; auto.
      * split; [exact A|]. split; [rewrite B; exact EK|exact C].
    + specialize (IH (pre ++ [e]) n ok). rewrite <- app_assoc in IH. cbn [app] in IH.
      apply IH; auto. intros x Hx. apply in_app_or in Hx as [Hx|[<-|[]]]; auto.
Qed.

Lemma materialise_inv env bs es p n : roomy env -> inv bs es n -> inv bs es (materialise env p n).
Proof.
  intros HR (W & T & Pt). destruct (materialise_spec env p n HR W) as (A & B & C & D & E). split; [exact A|]. split; [|exact Pt].
  intros e He Hc. destruct (T e He Hc) as (x & y & H1 & H2 & H3). exists x, y. split; [exact H1|]. split; [exact H2|].
  destruct (Nat.eq_dec p x) as [ <- |Hne].
  - rewrite E; [exact H3|]. destruct H3 as (b & K1 & K2 & K3). unfold outSize. rewrite K1. lia.
  - eapply flows_keep; [exact W|exact B|exact Hne|tauto|exact H3].
Qed.

Lemma materialise_all env bs es ps n : roomy env -> inv bs es n ->
  inv bs es (fold_left (fun m p => materialise env p m) ps n).
Proof. intros HR. revert n. induction ps as [|p r IH]; cbn; intros n H; [exact H|]. apply IH, materialise_inv; assumption. Qed.

Lemma pending_spec env bs es n : roomy env -> plainWiring bs es -> inv bs es n ->
  let '(es', n', ok') := connectPending env bs es n in
  inv bs es' n' /\ map key es' = map key es /\ (forall e, In e es' -> isWaiting e = false).
Proof.
  intros HR HP HI. unfold connectPending. pose proof (loop_spec env bs es [] n true HR HP HI) as L. cbn [app] in L.
  destruct (connectLoop env bs [] es n true) as [[es' n'] ok]. destruct L as (A & B & C); [intros ? []|].
  split; [apply materialise_all; assumption|]. auto.
Qed.

(** ** The other steps *)

Lemma disconnectIn_wf q n n' : wf n -> disconnectIn q n = Some n' -> wf n'.
Proof.
  intros [W1 W2]. unfold disconnectIn. destruct (inConnected n q); [|discriminate]. intros H. injection H as <-. split; cbn [nout nin nsize]; [exact W1|].
  intros x b. rewrite lookup_drop. destruct (Nat.eqb x q); [discriminate|apply W2].
Qed.

Lemma disconnectAll_spec bs es n : wf n -> let '(es', n') := disconnectAll bs es n in
  wf n' /\ map key es' = map key es /\ (forall e, In e es' -> isConn e = false).
Proof.
  revert n. induction es as [|e r IH]; cbn [disconnectAll]; intros n W; [split; [exact W|split; [reflexivity|intros ? []]]|].
  destruct (disconnectOne bs e n) as [e' n1] eqn:E1.
  assert (H1 : wf n1 /\ key e' = key e /\ isConn e' = false).
  { unfold disconnectOne in E1. destruct (isConn e) eqn:Ec.
    - destruct (dstOf bs (le e)) as [q|].
      + injection E1 as <- <-. split; [|auto]. destruct (disconnectIn q n) eqn:Ed; [eapply disconnectIn_wf; eassumption|exact W].
      + injection E1 as <- <-. auto.
    - injection E1 as <- <-. auto. }
  destruct H1 as (W1 & K1 & C1). specialize (IH n1 W1). destruct (disconnectAll bs r n1) as [r' n2]. destruct IH as (A & B & C).
  split; [exact A|]. split; [cbn; congruence|]. intros x [<-|Hx]; auto.
Qed.

Lemma disconnectAll_inv bs es n : wf n -> let '(es', n') := disconnectAll bs es n in inv bs es' n' /\ map key es' = map key es.
Proof.
  intros W. pose proof (disconnectAll_spec bs es n W) as H. destruct (disconnectAll bs es n) as [es' n']. destruct H as (A & B & C).
  split; [|exact B]. split; [exact A|]. split; intros e He Hc; apply isConn_true in Hc; rewrite (C e He) in Hc; discriminate.
Qed.

Lemma inv_app_waiting bs es n e : gstate (le e) <> Connected -> inv bs es n -> inv bs (es ++ [e]) n.
Proof.
  intros He (W & T & P). split; [exact W|]. split; intros x Hx Hc; apply in_app_or in Hx as [Hx|[<-|[]]]; try contradiction; auto.
Qed.

Lemma feeder_last bs es e f q : oneFeeder bs (es ++ [e]) -> In f es ->
  inEnd bs (gdst (le e)) (gdstPort (le e)) = Some q -> inEnd bs (gdst (le f)) (gdstPort (le f)) = Some q -> False.
Proof. intros H Hf. apply (feeder_mid bs es e []); auto. Qed.

Lemma emplace_inv env arith bs s sp d dp mn w nm es n es' n' : roomy env -> inv bs es n ->
  emplaceEdge env arith bs s sp d dp mn w nm es n = Some (es', n') -> plainWiring bs es' ->
  inv bs es' n' /\ exists e, es' = es ++ [e] /\ carries bs n' (le e) /\ gstate (le e) = Waiting /\
    gsrc (le e) = s /\ gsrcPort (le e) = Named sp /\ gdst (le e) = d /\ gdstPort (le e) = Named dp.
Proof.
  intros HR HI. unfold emplaceEdge. destruct (findB s bs) as [sb|] eqn:Es; [|discriminate]. destruct (findB d bs) as [db|] eqn:Ed; [|discriminate].
  destruct (resolve (gouts sb) (Named sp)) as [p|] eqn:Ep; [|discriminate]. destruct (resolve (gins db) (Named dp)) as [q|] eqn:Eq; [|discriminate].
  destruct (negb (Nat.eqb (tyOf env p) (tyOf env q))); [discriminate|].
  destruct HI as (W & T & P). destruct (connectPorts_spec env p q n HR W) as (W2 & F2 & Fl & Fk & Fs).
  destruct (connectPorts env p q n) as [n2 ok]. cbn [fst snd] in *. destruct ok; [|discriminate]. intros H [HS HF]. injection H as <- <-.
  set (e := freshL (connectEdge arith bs s (Named sp) d (Named dp) mn w nm)) in *.
  assert (Ee1 : outEnd bs (gsrc (le e)) (gsrcPort (le e)) = Some p) by (cbn; unfold outEnd; rewrite Es; exact Ep).
  assert (Ee2 : inEnd bs (gdst (le e)) (gdstPort (le e)) = Some q) by (cbn; unfold inEnd; rewrite Ed; exact Eq).
  split.
  - apply inv_app_waiting; [discriminate|]. split; [exact W2|]. split; [|exact P].
    intros f Hf Hc. destruct (T f Hf Hc) as (x & y & H1 & H2 & H3). exists x, y. split; [exact H1|]. split; [exact H2|].
    assert (Hy : q <> y) by (intros <-; exact (feeder_last bs es e f q HF Hf Ee2 H2)).
    destruct (Nat.eq_dec p x) as [ <- |Hx]; [|eapply flows_keep; [exact W|exact F2|exact Hx|exact Hy|exact H3]].
    destruct H3 as (b & K1 & K2 & K3). assert (Hs : (0 < outSize n p)%N) by (unfold outSize; rewrite K1; exact K3).
    destruct (Fs Hs) as [S1 S2]. exists b. unfold sizeOf. rewrite S1, S2. split; [exact K1|]. split; [|exact K3].
    destruct F2 as [_ F2 _]. rewrite F2 by exact Hy. exact K2.
  - exists e. split; [reflexivity|]. split; [|auto 10]. exists p, q. split; [exact Ee1|]. split; [exact Ee2|]. apply Fl. reflexivity.
Qed.

Lemma remove_inv bs s sp es n es' n' : ownPorts bs -> inv bs es n -> removeBySource bs s sp es n = Some (es', n') -> inv bs es' n'.
Proof.
  intros HS (W & T & P). unfold removeBySource. destruct (findB s bs) as [sb|] eqn:Es; [|discriminate].
  destruct (resolve (gouts sb) (Named sp)) as [p|] eqn:Ep; [|discriminate]. unfold disconnectOut. destruct (outConnected n p); [|discriminate].
  intros H. injection H as <- <-.
  set (es' := filter _ es) in *.
  assert (Hsub : forall f, In f es' -> In f es) by (intros f Hf; apply filter_In in Hf as [Hf _]; exact Hf).
  split; [|split].
  - destruct W as [W1 W2]. split; cbn [nout nin nsize]; [|exact W2]. intros x b. rewrite lookup_drop. destruct (Nat.eqb x p); [discriminate|apply W1].
  - intros f Hf Hc. pose proof (Hsub f Hf) as Hin. destruct (T f Hin Hc) as (x & y & H1 & H2 & (b & K1 & K2 & K3)). exists x, y.
    split; [exact H1|]. split; [exact H2|]. exists b. cbn [nout nin]. rewrite lookup_drop.
    destruct (Nat.eqb_spec x p) as [ -> |Hx]; [exfalso|auto].
    apply filter_In in Hf as [_ Hf]. rewrite (P f Hin Hc), H1, Nat.eqb_refl in Hf. cbn [orb] in Hf. rewrite andb_true_r in Hf.
    apply negb_true_iff, Nat.eqb_neq in Hf. apply Hf. clear Hf.
    apply (HS _ _ (gsrcPort (le f)) (Named sp) p); [exact H1|]. unfold outEnd. rewrite Es. exact Ep.
  - intros f Hf Hc. apply P; auto.
Qed.

Lemma step_inv env arith bs o es n es' n' : roomy env -> ownPorts bs -> inv bs es n -> plainWiring bs es ->
  linkStep env arith bs o es n = (es', n') -> plainWiring bs es' -> inv bs es' n'.
Proof.
  intros HR HO HI HP H HP'. destruct o as [s sp d dp mn|s sp d dp mn|s sp| | |]; cbn [linkStep] in H.
  - injection H as <- <-. apply inv_app_waiting; [discriminate|exact HI].
  - destruct (emplaceEdge env arith bs s sp d dp mn 0 "" es n) as [[a b]|] eqn:E; [|injection H as <- <-; exact HI].
    injection H as <- <-. exact (proj1 (emplace_inv _ _ _ _ _ _ _ _ _ _ _ _ _ _ HR HI E HP')).
  - destruct (removeBySource bs s sp es n) as [[a b]|] eqn:E; [|injection H as <- <-; exact HI].
    injection H as <- <-. exact (remove_inv _ _ _ _ _ _ _ HO HI E).
  - pose proof (pending_spec env bs es n HR HP HI) as L. destruct (connectPending env bs es n) as [[a b] c]. cbn [fst] in H. injection H as <- <-. apply L.
  - pose proof (disconnectAll_inv bs es n (proj1 HI)) as L. rewrite H in L. apply L.
  - unfold reconnectAll in H. pose proof (disconnectAll_inv bs es n (proj1 HI)) as L. destruct (disconnectAll bs es n) as [a b]. destruct L as [L1 L2].
    pose proof (pending_spec env bs a b HR (plain_key _ _ _ (eq_sym L2) HP) L1) as M. destruct (connectPending env bs a b) as [[a' b'] c]. cbn [fst] in H.
    injection H as <- <-. apply M.
Qed.
