(** Connecting edges: the theorems C107 to C111. *)
From Coq Require Import ZArith NArith Bool Arith Lia String List.
From Verif Require Import Base TopoModel EditModel EditSpec EditProofs EditProps LinkModel LinkSpec LinkProofs LinkSizeProofs.
Import ListNotations.
Local Open Scope nat_scope.
Local Open Scope string_scope.
Local Open Scope list_scope.

(** ** C107: an edge reported as connected carries samples *)

(** Connecting what is pending keeps that true, for old and new connections, whatever fails. *)
Theorem C107_connect_truthful env bs es n : roomy env -> plainWiring bs es -> sane bs es n -> truthful bs es n ->
  let '(es', n', _) := connectPending env bs es n in sane bs es' n' /\ truthful bs es' n' /\ forall e, In e es' -> gstate (le e) <> Waiting.
Proof.
  intros HR HP HS HT. assert (HI : inv bs es n) by (apply sane_inv; auto). pose proof (pending_spec env bs es n HR HP HI) as L.
  destruct (connectPending env bs es n) as [[es' n'] ok]. destruct L as (A & B & C). apply sane_inv in A as [A1 A2].
  split; [exact A1|]. split; [exact A2|]. intros e He Hw. apply isWaiting_true in Hw. rewrite (C e He) in Hw. discriminate.
Qed.
Print Assumptions C107_connect_truthful.

(** And so does every sequence of steps, if at every moment each port is written in one way only and each input is fed once. *)
Theorem C107_history env arith bs ops : roomy env -> ownPorts bs -> plainAlong env arith bs ops [] noLinks ->
  let '(es, n) := linkRun env arith bs ops [] noLinks in truthful bs es n.
Proof.
  intros HR HO. assert (HI : inv bs [] noLinks) by (split; [split; cbn; discriminate|split; intros ? []]).
  revert HI. generalize (@nil LEdge) as es. generalize noLinks as n. induction ops as [|o r IH]; intros n es HI HP; cbn [linkRun plainAlong] in *.
  - apply HI.
  - destruct HP as [HP HA]. destruct (linkStep env arith bs o es n) as [es' n'] eqn:E. apply IH; [|exact HA].
    assert (HP' : plainWiring bs es') by (destruct r; apply HA). exact (step_inv env arith bs o es n es' n' HR HO HI HP E HP').
Qed.
Print Assumptions C107_history.

(** An edge added while running carries samples at once. *)
Theorem C107_emplaced env arith bs s sp d dp mn w nm es n es' n' : roomy env -> sane bs es n -> truthful bs es n ->
  emplaceEdge env arith bs s sp d dp mn w nm es n = Some (es', n') -> plainWiring bs es' ->
  truthful bs es' n' /\ exists e, es' = es ++ [e] /\ carries bs n' (le e) /\
    gsrc (le e) = s /\ gsrcPort (le e) = Named sp /\ gdst (le e) = d /\ gdstPort (le e) = Named dp.
Proof.
  intros HR HS HT E HP. assert (HI : inv bs es n) by (apply sane_inv; auto).
  destruct (emplace_inv _ _ _ _ _ _ _ _ _ _ _ _ _ _ HR HI E HP) as [(_ & A & _) (e & B & C & _ & D)]. split; [exact A|]. exists e. auto.
Qed.
Print Assumptions C107_emplaced.

Definition plainEnv : Env := mkEnv (fun _ => 0) (fun _ => 0) (fun _ => true) (fun k => k).
Definition four : list GBlock := map plainBlock [1; 2; 3; 4].
Definition noArith (p : nat) : bool := false.

(** Fan-out, an edge emplaced, a removal, and connecting again. *)
Definition steps : list LinkOp :=
  [OpConnect 1 (Named "out") 2 (Named "in") (Some 100%N); OpConnect 1 (Named "out") 3 (Idx 0 None) (Some 300%N); OpPending;
   OpEmplace 3 "out" 4 "in" None; OpPending; OpRemove 3 "out"; OpEmplace 2 "out" 4 "in" (Some 50%N); OpReconnect].

Lemma plainEnv_roomy : roomy plainEnv.
Proof. intros k. cbn. lia. Qed.

Lemma four_out i d p : outEnd four i d = Some p -> p = i * 10 + 1.
Proof.
  unfold outEnd, four. cbn [map findB plainBlock gid].
  assert (H : forall j, resolve (gouts (plainBlock j)) d = Some p -> p = j * 10 + 1).
  { intros j. destruct d as [t s|x]; cbn [resolve gouts plainBlock].
    - unfold portByIndex. destruct (N.to_nat t) as [|[|?]]; cbn [nth_error]; destruct s; intros H; try discriminate. inversion H. lia.
    - unfold portFromName. destruct (cutHash x) as [[a b]|]; cbn [findOne findMany].
      + destruct (fromChars b); discriminate.
      + destruct (String.eqb "out" x); intros H; inversion H. lia. }
  destruct (Nat.eqb_spec 1 i); [subst; apply H|]. destruct (Nat.eqb_spec 2 i); [subst; apply H|].
  destruct (Nat.eqb_spec 3 i); [subst; apply H|]. destruct (Nat.eqb_spec 4 i); [subst; apply H|]. discriminate.
Qed.

Lemma four_own : ownPorts four.
Proof. intros i j d d' p H1 H2. apply four_out in H1, H2. lia. Qed.

(** A test for plain wiring, for the examples. *)
Definition sameEnd (a b : option nat) : bool := match a, b with Some x, Some y => Nat.eqb x y | _, _ => false end.
Definition spellB (bs : list GBlock) (es : list LEdge) : bool :=
  forallb (fun e => forallb (fun f => negb (sameEnd (srcOf bs (le e)) (srcOf bs (le f))) || sameSource (le e) (le f)) es) es.
Fixpoint feederB (bs : list GBlock) (es : list LEdge) : bool :=
  match es with [] => true | e :: r => forallb (fun f => negb (sameEnd (dstOf bs (le e)) (dstOf bs (le f)))) r && feederB bs r end.
Fixpoint alongB (env : Env) (arith : nat -> bool) (bs : list GBlock) (ops : list LinkOp) (es : list LEdge) (n : Net) : bool :=
  spellB bs es && feederB bs es &&
  match ops with [] => true | o :: r => let '(es', n') := linkStep env arith bs o es n in alongB env arith bs r es' n' end.

Lemma plainB bs es : spellB bs es && feederB bs es = true -> plainWiring bs es.
Proof.
  intros H. apply andb_prop in H as [H1 H2]. split.
  - intros e f p He Hf E1 E2. unfold spellB in H1. rewrite forallb_forall in H1. specialize (H1 e He). rewrite forallb_forall in H1. specialize (H1 f Hf).
    rewrite !srcOf_end, E1, E2 in H1. cbn in H1. rewrite Nat.eqb_refl in H1. cbn in H1. apply sameSource_true. exact H1.
  - clear H1. unfold oneFeeder. induction es as [|e r IH]; [constructor|]. cbn in H2. apply andb_prop in H2 as [H1 H2]. constructor; [|apply IH; exact H2].
    rewrite forallb_forall in H1. apply Forall_forall. intros f Hf q E1 E2. specialize (H1 f Hf). rewrite !dstOf_end, E1, E2 in H1. cbn in H1.
    rewrite Nat.eqb_refl in H1. discriminate.
Qed.

Lemma alongB_plain env arith bs ops : forall es n, alongB env arith bs ops es n = true -> plainAlong env arith bs ops es n.
Proof.
  induction ops as [|o r IH]; intros es n H; cbn [alongB plainAlong] in *; apply andb_prop in H as [H1 H2]; (split; [apply plainB; exact H1|]); [exact I|].
  destruct (linkStep env arith bs o es n) as [es' n']. apply IH. exact H2.
Qed.

Example C107_case : roomy plainEnv /\ ownPorts four /\ plainAlong plainEnv noArith four steps [] noLinks /\
  (let '(es, n) := linkRun plainEnv noArith four steps [] noLinks in
   map (fun e => (gsrc (le e), gdst (le e), gstate (le e), lsize e)) es =
     [(1, 2, Connected, Some 300%N); (1, 3, Connected, Some 300%N); (2, 4, Connected, Some 50%N)] /\
   flows n 11 20 /\ flows n 11 30 /\ flows n 21 40 /\ lookupP 31 (nout n) <> lookupP 40 (nin n)).
Proof.
  split; [exact plainEnv_roomy|]. split; [exact four_own|]. split.
  - apply alongB_plain. vm_compute. reflexivity.
  - vm_compute. split; [reflexivity|]. split; [eauto|]. split; [eauto|]. split; [eauto|]. discriminate.
Qed.

(** The same port given once by its index and once by its name: connecting the second gives the port a new buffer; the first
    edge stays "connected" but its reader is left on the old buffer. *)
Theorem C107_spelling_refuted :
  exists ops es n, roomy plainEnv /\ ownPorts four /\ linkRun plainEnv noArith four ops [] noLinks = (es, n) /\ oneFeeder four es /\ ~ truthful four es n.
Proof.
  exists [OpConnect 1 (Idx 0 None) 2 (Idx 0 None) None; OpPending; OpEmplace 1 "out" 3 "in" None; OpPending]. do 2 eexists.
  split; [exact plainEnv_roomy|]. split; [exact four_own|]. split; [vm_compute; reflexivity|]. split.
  - repeat constructor. vm_compute. congruence.
  - intros T. destruct (T _ (or_introl eq_refl) eq_refl) as (p & q & E1 & E2 & (b & F1 & F2 & _)).
    vm_compute in E1, E2. injection E1 as <-. injection E2 as <-. vm_compute in F1, F2. congruence.
Qed.
Print Assumptions C107_spelling_refuted.

(** Two edges into one input: the first stays "connected" (the state for this, Overridden, is never used). *)
Theorem C107_two_feeders_refuted :
  exists ops es n, linkRun plainEnv noArith four ops [] noLinks = (es, n) /\ oneSpelling four es /\ ~ truthful four es n.
Proof.
  exists [OpConnect 1 (Named "out") 3 (Named "in") None; OpConnect 2 (Named "out") 3 (Named "in") None; OpPending]. do 2 eexists.
  split; [vm_compute; reflexivity|]. split.
  - intros e f p [<-|[<-|[]]] [<-|[<-|[]]]; vm_compute; auto; congruence.
  - intros T. destruct (T _ (or_introl eq_refl) eq_refl) as (p & q & E1 & E2 & (b & F1 & F2 & _)).
    vm_compute in E1, E2. injection E1 as <-. injection E2 as <-. vm_compute in F1, F2. congruence.
Qed.
Print Assumptions C107_two_feeders_refuted.

(** A check that an edge does not carry samples. *)
Definition carriesB (bs : list GBlock) (n : Net) (e : GEdge) : bool :=
  match srcOf bs e, dstOf bs e with
  | Some p, Some q => match lookupP p (nout n), lookupP q (nin n) with Some a, Some b => Nat.eqb a b && N.ltb 0 (sizeOf n a) | _, _ => false end
  | _, _ => false
  end.

Lemma carriesB_ok bs n e : carriesB bs n e = true <-> carries bs n e.
Proof.
  unfold carriesB, carries, flows. rewrite srcOf_end, dstOf_end.
  destruct (outEnd bs (gsrc e) (gsrcPort e)) as [p|]; [|split; [discriminate|intros (p & q & X & _); discriminate]].
  destruct (inEnd bs (gdst e) (gdstPort e)) as [q|]; [|split; [discriminate|intros (p' & q & _ & X & _); discriminate]].
  split.
  - intros H. exists p, q. split; [reflexivity|]. split; [reflexivity|].
    destruct (lookupP p (nout n)) as [a|]; [|discriminate]. destruct (lookupP q (nin n)) as [b|]; [|discriminate]. apply andb_prop in H as [H1 H2].
    apply Nat.eqb_eq in H1 as <-. apply N.ltb_lt in H2. exists a. auto.
  - intros (p' & q' & X & Y & (b & E1 & E2 & E3)). injection X as <-. injection Y as <-. rewrite E1, E2, Nat.eqb_refl. cbn. apply N.ltb_lt. exact E3.
Qed.

Lemma carriesB_no bs n e : carriesB bs n e = false -> ~ carries bs n e.
Proof. intros H X. apply carriesB_ok in X. congruence. Qed.

(** 1 feeds 2 and 3, running. *)
Definition fanOut : list LinkOp := [OpConnect 1 (Idx 0 None) 2 (Idx 0 None) None; OpConnect 1 (Idx 0 None) 3 (Idx 0 None) None; OpPending].
Definition fanEdges : list GEdge := map le (fst (linkRun plainEnv noArith four fanOut [] noLinks)).
Definition fanNet : Net := snd (linkRun plainEnv noArith four fanOut [] noLinks).

(** Grouping 1 and 2 while running and connecting the new outer edge cuts the edge inside the group, which stays "connected". *)
Theorem C107_grouped_refuted :
  exists g' sub e,
    (forall x, In x fanEdges -> gstate x = Connected /\ carries four fanNet x) /\
    groupBlocks noArith true 9 "group" [plainBlock 1; plainBlock 2] (mkGraph four fanEdges) = (Some 9, g') /\
    findB 9 (gblocks g') = Some sub /\ In e (gsubEdges sub) /\ gstate e = Connected /\ carries (gsub sub) fanNet e /\
    (let '(es', n', ok) := connectPending plainEnv (gblocks g') (map freshL (gedges g')) fanNet in ok = true /\ ~ carries (gsub sub) n' e).
Proof.
  do 3 eexists. split; [|split; [vm_compute; reflexivity|split; [vm_compute; reflexivity|split; [left; reflexivity|split; [reflexivity|split]]]]].
  - vm_compute fanEdges. intros x [<-|[<-|[]]]; (split; [reflexivity|apply carriesB_ok; vm_compute; reflexivity]).
  - apply carriesB_ok. vm_compute. reflexivity.
  - vm_compute connectPending. split; [reflexivity|]. apply carriesB_no. vm_compute. reflexivity.
Qed.
Print Assumptions C107_grouped_refuted.

(** The group around 1 and 2 with an edge inside and one out of it, running. *)
Definition fanGroup : GBlock := GB 9 "group" [] [One "x" 11] true [plainBlock 1; plainBlock 2] [link 1 (Idx 0 None) 2 (Idx 0 None)] [] [mkExport 1 "out" "x"].
Definition fanOuter : GGraph := mkGraph [plainBlock 3; plainBlock 4; fanGroup] [link 9 (Named "x") 3 (Idx 0 None)].

(** Ungrouping it and connecting what is then pending cuts the edge that was inside. *)
Theorem C107_ungrouped_refuted :
  exists g' e, (forall x, In x (gsubEdges fanGroup) -> carries (gsub fanGroup) fanNet x) /\
    (forall x, In x (gedges fanOuter) -> carries (gblocks fanOuter) fanNet x) /\
    ungroupBlocks fanGroup fanOuter = Some g' /\ In e (gedges g') /\ gstate e = Connected /\ carries (gblocks g') fanNet e /\
    (let '(es', n', ok) := connectPending plainEnv (gblocks g') (map freshL (gedges g')) fanNet in
     ok = true /\ In e (map le es') /\ ~ carries (gblocks g') n' e).
Proof.
  do 2 eexists. split; [|split; [|split; [vm_compute; reflexivity|split; [right; left; reflexivity|split; [reflexivity|split]]]]].
  - intros x [<-|[]]. apply carriesB_ok. vm_compute. reflexivity.
  - intros x [<-|[]]. apply carriesB_ok. vm_compute. reflexivity.
  - apply carriesB_ok. vm_compute. reflexivity.
  - vm_compute connectPending. split; [reflexivity|]. split; [right; left; reflexivity|]. apply carriesB_no. vm_compute. reflexivity.
Qed.
Print Assumptions C107_ungrouped_refuted.

(** Replacing a block leaves its edges marked "connected", so that the new block is never connected. *)
Theorem C107_replaced_refuted :
  exists g' e, replaceBlock 100 2 (Some (plainBlock 7)) (mkGraph four fanEdges) = Done g' /\ In e (gedges g') /\ gstate e = Connected /\ gdst e = 7 /\
    (let '(es', n', ok) := connectPending plainEnv (gblocks g') (map freshL (gedges g')) fanNet in
     ok = true /\ In e (map le es') /\ ~ carries (gblocks g') n' e).
Proof.
  do 2 eexists. split; [vm_compute; reflexivity|]. split; [left; reflexivity|]. split; [reflexivity|]. split; [reflexivity|].
  vm_compute connectPending. split; [reflexivity|]. split; [left; reflexivity|]. apply carriesB_no. vm_compute. reflexivity.
Qed.
Print Assumptions C107_replaced_refuted.

Lemma Forall2_weaken {A B} (P Q : A -> B -> Prop) l m : (forall x y, P x y -> Q x y) -> Forall2 P l m -> Forall2 Q l m.
Proof. intros H F. induction F; constructor; auto. Qed.

(** ** C108: which edges get connected *)

(** If memory suffices, exactly the pending edges whose ends exist and are of the same type and kind get connected, whatever
    becomes of the others; decided edges are untouched; the result tells whether all were. *)
Theorem C108_outcome env bs es n : roomy env -> sane bs es n -> (forall s, canAlloc env s = true) ->
  let '(es', n', ok) := connectPending env bs es n in
  Forall2 (fun e e' => (gsrc (le e'), gsrcPort (le e'), gdst (le e'), gdstPort (le e')) = (gsrc (le e), gsrcPort (le e), gdst (le e), gdstPort (le e)) /\
    (gstate (le e) <> Waiting -> e' = e) /\ (gstate (le e) = Waiting -> (gstate (le e') = Connected <-> matching env bs (le e)))) es es' /\
  (ok = true <-> Forall (fun e => gstate (le e) = Waiting -> matching env bs (le e)) es).
Proof.
  intros HR [S1 S2 _] HA. unfold connectPending. destruct (loop_outcome env bs es [] n true HR (conj S1 S2) HA) as (r & L).
  destruct (connectLoop env bs [] es n true) as [[es' n'] ok]. destruct L as (A & B & C). cbn [app] in A. subst r. split.
  - eapply Forall2_weaken; [|exact B]. intros e e' (K & X & Y). split; [|split].
    + unfold key in K. injection K; intros. congruence.
    + intros Hw. apply X. destruct (isWaiting e) eqn:E; [apply isWaiting_true in E; contradiction|reflexivity].
    + intros Hw. apply Y. apply isWaiting_true. exact Hw.
  - rewrite C. split.
    + intros [_ F]. eapply Forall_impl; [|exact F]. intros e H Hw. apply H, isWaiting_true. exact Hw.
    + intros F. split; [reflexivity|]. eapply Forall_impl; [|exact F]. intros e H Hw. apply H, isWaiting_true. exact Hw.
Qed.
Print Assumptions C108_outcome.

Definition mixedEnv : Env := mkEnv (fun p => if Nat.eqb p 40 then 1 else 0) (fun _ => 0) (fun _ => true) (fun k => k).

Example C108_case : roomy mixedEnv /\ sane four [] noLinks /\
  (let '(es, n) := linkRun mixedEnv noArith four
     [OpConnect 1 (Named "out") 2 (Named "in") None; OpConnect 1 (Named "out") 4 (Named "in") None; OpConnect 2 (Named "oops") 3 (Named "in") None;
      OpConnect 2 (Named "out") 3 (Named "in") None; OpPending] [] noLinks in
   map (fun e => gstate (le e)) es = [Connected; IncompatiblePorts; PortNotFound; Connected]).
Proof. split; [intros k; cbn; lia|]. split; [split; cbn; intros; try discriminate; contradiction|]. vm_compute. reflexivity. Qed.

(** ** C109: buffers are as large as the edges ask *)

(** For every output none of whose edges was connected before: once connected, its buffer has the size that any of its edges,
    also those still failing, asks for. *)
Theorem C109_sizes env bs es n p : roomy env -> plainWiring bs es -> sane bs es n -> truthful bs es n ->
  (forall e, In e es -> outEnd bs (gsrc (le e)) (gsrcPort (le e)) = Some p -> gstate (le e) <> Connected) ->
  let '(es', n', _) := connectPending env bs es n in
  forall e f k, In e es' -> In f es' -> gstate (le e) = Connected ->
    outEnd bs (gsrc (le e)) (gsrcPort (le e)) = Some p -> outEnd bs (gsrc (le f)) (gsrcPort (le f)) = Some p -> gmin (le f) = Some k ->
    (k <= outSize n' p)%N.
Proof.
  intros HR HP HS HT Hno. assert (HI : inv bs es n) by (apply sane_inv; auto).
  assert (HB : big bs p es n) by (intros (e & H1 & H2 & H3); exfalso; exact (Hno e H1 H3 H2)).
  pose proof (pending_big env bs es n p HR HP HI HB) as L. destruct (connectPending env bs es n) as [[es' n'] ok].
  intros e f k He Hf Hc E1 E2 E3. apply (L (ex_intro _ e (conj He (conj Hc E1))) f k Hf E2 E3).
Qed.
Print Assumptions C109_sizes.

Example C109_case : let '(es, n) := linkRun plainEnv noArith four (firstn 3 steps) [] noLinks in
  plainWiring four es /\ map (fun e => (gmin (le e), gstate (le e))) es = [(Some 100%N, Connected); (Some 300%N, Connected)] /\ outSize n 11 = 300%N.
Proof.
  assert (H : spellB four (fst (linkRun plainEnv noArith four (firstn 3 steps) [] noLinks)) && feederB four (fst (linkRun plainEnv noArith four (firstn 3 steps) [] noLinks)) = true)
    by (vm_compute; reflexivity). apply plainB in H.
  destruct (linkRun plainEnv noArith four (firstn 3 steps) [] noLinks) as [es n] eqn:E. split; [exact H|]. vm_compute in E. injection E as <- <-. split; vm_compute; reflexivity.
Qed.

(** An edge that joins later does not get the size it asks for; it is "connected" all the same. *)
Theorem C109_late_refuted :
  exists ops es n e k, linkRun plainEnv noArith four ops [] noLinks = (es, n) /\ plainAlong plainEnv noArith four ops [] noLinks /\ In e es /\
    gstate (le e) = Connected /\ gmin (le e) = Some k /\ (outSize n 11 < k)%N /\ outEnd four (gsrc (le e)) (gsrcPort (le e)) = Some 11.
Proof.
  exists [OpConnect 1 (Named "out") 2 (Named "in") (Some 100%N); OpPending; OpConnect 1 (Named "out") 3 (Named "in") (Some 300%N); OpPending]. do 4 eexists.
  split; [vm_compute; reflexivity|]. split; [apply alongB_plain; vm_compute; reflexivity|]. split; [right; left; reflexivity|].
  split; [reflexivity|]. split; [reflexivity|]. split; vm_compute; reflexivity.
Qed.
Print Assumptions C109_late_refuted.

(** ** C110: no output is left without room *)

(** After connecting, every output port of every block has a real buffer, with or without an edge. *)
Theorem C110_outputs_ready env bs es n b d p : roomy env -> sane bs es n -> In b bs -> In d (gouts b) ->
  ((exists x, d = One x p) \/ (exists x l, d = Many x l /\ In p l)) ->
  let '(_, n', _) := connectPending env bs es n in (0 < outSize n' p)%N.
Proof.
  intros HR [S1 S2 _] Hb Hd Hq.
  assert (Hp : In p (physOf d)) by (destruct Hq as [(x & ->)|(x & l & -> & Hl)]; [left; reflexivity|exact Hl]). pose proof (pending_outputs env bs es n b d p HR (conj S1 S2) Hb Hd Hp) as H.
  destruct (connectPending env bs es n) as [[es' n'] ok]. exact H.
Qed.
Print Assumptions C110_outputs_ready.

Example C110_case : let '(_, n', _) := connectPending plainEnv four [] noLinks in outSize noLinks 31 = 0%N /\ outSize n' 31 = 4096%N.
Proof. vm_compute. auto. Qed.

(** Removing the edges of an output takes its buffer away: the port has no room from then on (until the next connecting),
    and its block, which asks all its outputs for room, can do nothing any more. *)
Theorem C110_removed_refuted :
  exists ops es n, linkRun plainEnv noArith four ops [] noLinks = (es, n) /\ plainAlong plainEnv noArith four ops [] noLinks /\
    ops = [OpConnect 1 (Named "out") 2 (Named "in") None; OpPending; OpRemove 1 "out"] /\ es = [] /\ outSize n 11 = 0%N.
Proof.
  do 3 eexists. split; [|split; [|split; [reflexivity|split; [reflexivity|]]]]; [vm_compute; reflexivity|apply alongB_plain; vm_compute; reflexivity|vm_compute; reflexivity].
Qed.
Print Assumptions C110_removed_refuted.

(** ** C111: removing the edges of a port *)

(** What is removed starts at the port, and what is connected and starts there is removed and carries nothing any more. *)
Theorem C111_remove bs s sp es n es' n' p : ownPorts bs -> sane bs es n -> outEnd bs s (Named sp) = Some p ->
  removeBySource bs s sp es n = Some (es', n') ->
  (forall e, In e es' -> In e es) /\
  (forall e, In e es -> gstate (le e) = Connected -> (In e es' <-> outEnd bs (gsrc (le e)) (gsrcPort (le e)) <> Some p)) /\
  (forall e, In e es -> (forall r, lptr e = Some r -> outEnd bs (gsrc (le e)) (gsrcPort (le e)) = Some r) ->
     ~ In e es' -> outEnd bs (gsrc (le e)) (gsrcPort (le e)) = Some p) /\
  (forall q, ~ flows n' p q) /\ (forall x y, x <> p -> flows n x y -> flows n' x y).
Proof.
  intros HO [S1 S2 S3] Hp. unfold removeBySource. unfold outEnd in Hp. destruct (findB s bs) as [sb|] eqn:Es; [|discriminate]. rewrite Hp.
  unfold disconnectOut. destruct (outConnected n p); [|discriminate]. intros H. injection H as <- <-.
  assert (Hs : outEnd bs s (Named sp) = Some p) by (unfold outEnd; rewrite Es; exact Hp).
  split; [intros e He; apply filter_In in He; tauto|]. split; [|split; [|split]].
  - intros e He Hc. rewrite filter_In, (S3 e He Hc), negb_true_iff. split.
    + intros [_ H] E. rewrite E, Nat.eqb_refl in H. cbn [orb] in H. rewrite andb_true_r in H. apply Nat.eqb_neq in H. apply H.
      exact (HO _ _ _ _ _ E Hs).
    + intros Hne. split; [exact He|]. destruct (Nat.eqb_spec (gsrc (le e)) s) as [E|E]; [|reflexivity]. cbn [andb].
      apply orb_false_iff. split.
      * destruct (outEnd bs (gsrc (le e)) (gsrcPort (le e))) as [r|]; [|reflexivity]. apply Nat.eqb_neq. congruence.
      * destruct (portEq (gsrcPort (le e)) (Named sp)) eqn:Ep; [|reflexivity]. apply portEq_true in Ep. rewrite E, Ep in Hne. contradiction.
  - intros e He Hr Hno. rewrite filter_In in Hno. destruct (negb _) eqn:En in Hno; [tauto|]. apply negb_false_iff, andb_prop in En as [E1 E2].
    apply Nat.eqb_eq in E1. apply orb_prop in E2 as [E2|E2].
    + destruct (lptr e) as [r|] eqn:El; [|discriminate]. apply Nat.eqb_eq in E2 as -> . apply Hr. reflexivity.
    + apply portEq_true in E2. rewrite E1, E2. exact Hs.
  - intros q (b & F & _). cbn [nout] in F. rewrite lookup_drop, Nat.eqb_refl in F. discriminate.
  - intros x y Hx (b & F1 & F2 & F3). exists b. cbn [nout nin]. rewrite lookup_drop. destruct (Nat.eqb_spec x p); [contradiction|]. auto.
Qed.
Print Assumptions C111_remove.

Example C111_case :
  match removeBySource four 1 "out" (map (fun e => mkLEdge e (Some 64%N) (Some 11)) fanEdges ++ [freshL (link 2 (Idx 0 None) 4 (Idx 0 None))]) fanNet with
  | Some (es', n') => map (fun e => (gsrc (le e), gdst (le e))) es' = [(2, 4)] /\ outSize n' 11 = 0%N
  | None => False end.
Proof. vm_compute. auto. Qed.

(** An edge that is not yet connected cannot be removed. *)
Theorem C111_pending_refuted :
  exists es n, linkRun plainEnv noArith four [OpConnect 1 (Named "out") 2 (Named "in") None] [] noLinks = (es, n) /\
    map (fun e => (gsrc (le e), gsrcPort (le e))) es = [(1, Named "out")] /\ removeBySource four 1 "out" es n = None.
Proof. do 2 eexists. split; [vm_compute; reflexivity|]. split; vm_compute; reflexivity. Qed.
Print Assumptions C111_pending_refuted.

(** Nor is one that was added by index removed along with the connected ones of its port. *)
Theorem C111_index_refuted :
  exists es n es' n' e,
    linkRun plainEnv noArith four [OpConnect 1 (Idx 0 None) 2 (Named "in") None; OpPending; OpConnect 1 (Idx 0 None) 3 (Named "in") None] [] noLinks = (es, n) /\
    removeBySource four 1 "out" es n = Some (es', n') /\ In e es' /\ srcOf four (le e) = Some 11.
Proof. do 5 eexists. split; [vm_compute; reflexivity|]. split; [vm_compute; reflexivity|]. split; [left; reflexivity|]. vm_compute. reflexivity. Qed.
Print Assumptions C111_index_refuted.
