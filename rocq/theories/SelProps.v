(* Properties of the selector block (C162-C168). *)

From Coq Require Import Arith List Bool Relations Sorted Lia.
From Verif Require Import SelModel SelSpec SelProofs SelProofs2 SelProofs3.
Import ListNotations.

Local Open Scope nat_scope.

Lemma pair_dec (p q : nat * nat) : {p = q} + {p <> q}.
Proof. decide equality; apply Nat.eq_dec. Defined.

(* ---------- C162: routing ---------- *)

(* Without synchronisation every call is defined, and an output receives
   exactly what was consumed of its inputs, input after input, every sample
   with its tags. *)
Theorem C162_output_is_what_was_consumed {A T : Type} (s : sel) (c : call A T) :
  configured s -> fits s c -> ~ synchronised s ->
  exists r, processBulk s c = Some r /\
    forall o, annot (rOut r o)
              = concat (map (fun i => firstn (consumed r i) (annot (inAt c i)))
                            (sourcesAsc (nIn s) (pairs s) o))
              /\ tagsInside (rOut r o)
              /\ length (smp (rOut r o)) <= nth o (caps c) 0.
Proof.
  intros H F Hs. destruct (list_eq_dec pair_dec (pairs s) []) as [Ep|Ep].
  - destruct (configured_groups s H) as (_ & G & _).
    unfold processBulk. rewrite (proj2 (inOut_empty _ _ _ G) Ep).
    eexists; split; [reflexivity|]. intros o. cbn [rOut]. split; [|split; [constructor|cbn; lia]].
    unfold sourcesAsc. rewrite Ep. cbn [existsb]. rewrite filter_none by reflexivity. reflexivity.
  - destruct (async_call s c H F Ep) as (r & E & R1 & R2 & _).
    { apply not_true_is_false. intros Hu. apply Hs. apply useSync_iff; assumption. }
    exists r. split; [exact E|]. intros o. destruct (R1 o) as [Q1 Q2]. auto.
Qed.
Print Assumptions C162_output_is_what_was_consumed.

(* An output with one input carries the stream of that input over any number
   of calls: nothing is lost, repeated, reordered or detached from its tags.
   This holds with and without synchronisation. *)
Theorem C162_stream_is_preserved {A T : Type} (s : sel) (h : list (call A T * result A T))
        (streams : nat -> list (A * list T)) (i o : nat) :
  configured s -> answered s h -> fed (nIn s) streams h -> sources (pairs s) o = [i] ->
  totalOut o h = firstn (totalIn i h) (streams i).
Proof.
  intros H. revert streams. induction h as [|[c r] h IH]; intros streams Ha Hf Ho; [reflexivity|].
  inversion Ha as [|? ? [F E] Ha']; subst. cbn [fst snd] in *. destruct Hf as [Hf Hf'].
  unfold totalOut, totalIn; cbn [map concat fold_right snd].
  fold (totalOut o h). fold (totalIn i h). rewrite (IH _ Ha' Hf' Ho).
  destruct (configured_groups s H) as (V & G & _).
  assert (Hin : In (i, o) (pairs s)) by (apply in_sources; rewrite Ho; left; reflexivity).
  assert (Hi : i < nIn s) by apply (proj2 V _ _ Hin).
  destruct (Hf i Hi) as (m & Em).
  assert (Hout : annot (rOut r o) = firstn (consumed r i) (annot (inAt c i))
                 /\ consumed r i <= length (annot (inAt c i))).
  { destruct (useSync s) eqn:Hu.
    - split; [eapply sync_output_single; eassumption|].
      destruct (sync_call s c r H F Hu E) as (f & C0 & C1 & _).
      destruct (C1 i) as (n & En & _); [exists o; exact Hin|].
      destruct (C0 i n En) as (-> & L & _). rewrite annot_length. exact L.
    - assert (Ep : pairs s <> []) by (intros E0; rewrite E0 in Hin; contradiction).
      destruct (async_call s c H F Ep Hu) as (r' & E' & _ & R2 & R3). rewrite E in E'. injection E' as <-.
      split.
      + rewrite R2. replace (sourcesAsc (nIn s) (pairs s) o) with [i]; [cbn; apply app_nil_r|].
        apply sorted_same; [repeat constructor|apply filter_sorted, seq_sorted|].
        intros x. unfold sourcesAsc. rewrite filter_In, in_seq, existsb_exists. split.
        * intros [ <- |[]]. split; [lia|]. exists (i, o). split; [exact Hin|]. unfold peq; cbn. rewrite !Nat.eqb_refl. reflexivity.
        * intros (_ & [a b] & Hab & Ep'). unfold peq in Ep'; cbn in Ep'. apply andb_true_iff in Ep'.
          destruct Ep' as [E1 E2]. apply Nat.eqb_eq in E1; apply Nat.eqb_eq in E2; subst a b.
          apply in_sources in Hab. rewrite Ho in Hab. destruct Hab as [ <- |[]]. left; reflexivity.
      + destruct (R3 i) as (L & _); [exists o; exact Hin|]. rewrite annot_length. exact L. }
  destruct Hout as [Hout L]. rewrite Hout, Em. rewrite Em in L. rewrite firstn_length in L.
  rewrite firstn_firstn. replace (Nat.min (consumed r i) m) with (consumed r i) by lia.
  rewrite <- (firstn_skipn (consumed r i) (firstn (consumed r i + totalIn i h) (streams i))).
  rewrite firstn_firstn, skipn_firstn_comm. f_equal; f_equal; lia.
Qed.
Print Assumptions C162_stream_is_preserved.

(* three inputs to three outputs; input 2 goes to outputs 0 and 2, output 0 is
   combined but not synchronised *)
Definition exChange : change :=
  mkChange (Some 3) (Some 3) (Some [2; 0; 1; 2]) (Some [0; 0; 1; 2]) None (Some false).
Definition exSel : sel := fst (settingsChanged exChange freshSel).
Definition exCall : call nat nat :=
  mkCall [] [mkSpan [10; 11] [(1, 7)]; mkSpan [20; 21; 22] []; mkSpan [30; 31] [(0, 8)]] 5 [4; 2; 3].

Example ex_configured : configured exSel.
Proof. exists exChange, freshSel. split; [left; discriminate|vm_compute; reflexivity]. Qed.
Example ex_fits : fits exSel exCall.
Proof. split; reflexivity. Qed.
Example ex_not_sync : ~ synchronised exSel.
Proof. intros (H & _). discriminate H. Qed.
Example ex_routed :
  option_map (fun r => (map (fun o => annot (rOut r o)) [0; 1; 2], rCons r)) (processBulk exSel exCall)
  = Some ([[(10, []); (11, [7]); (30, [8]); (31, [])]; [(20, []); (21, [])]; [(30, [8]); (31, [])]], [2; 2; 2]).
Proof. vm_compute. reflexivity. Qed.
Example ex_single : sources (pairs exSel) 1 = [1] /\ sources (pairs exSel) 2 = [2].
Proof. split; vm_compute; reflexivity. Qed.
Example ex_run : exists r1 r2,
  let c2 := mkCall [] [mkSpan [] []; mkSpan [22] []; mkSpan [] []] 5 [4; 2; 3] in
  let h := [(exCall, r1); (c2, r2)] in
  answered exSel h
  /\ fed 3 (fun i => nth i [[(10, []); (11, [7])]; [(20, []); (21, []); (22, [])]; [(30, [8]); (31, [])]] []) h
  /\ totalOut 1 h = [(20, []); (21, []); (22, [])].
Proof.
  destruct (processBulk exSel exCall) as [r1|] eqn:E1; [|vm_compute in E1; discriminate].
  destruct (processBulk exSel (mkCall [] [mkSpan [] []; mkSpan [22] []; mkSpan [] []] 5 [4; 2; 3] : call nat nat))
    as [r2|] eqn:E2; [|vm_compute in E2; discriminate].
  exists r1, r2. cbn zeta. split; [|split].
  - repeat constructor; cbn [fst snd]; assumption.
  - vm_compute in E1, E2. injection E1 as <-. injection E2 as <-. cbn [fed]. split; [|split; [|exact I]].
    + intros i Hi. exists 3. destruct i as [|[|[|i]]]; [vm_compute; reflexivity..|lia].
    + intros i Hi. exists 3. destruct i as [|[|[|i]]]; [vm_compute; reflexivity..|lia].
  - vm_compute in E1, E2. injection E1 as <-. injection E2 as <-. vm_compute. reflexivity.
Qed.

(* ---------- C163: a call does all it can ---------- *)

(* Without synchronisation an input is left with samples only if one of its
   outputs is full, or the monitor that follows it is. *)
Theorem C163_input_stops_only_at_a_full_output {A T : Type} (s : sel) (c : call A T) (r : result A T) (i : nat) :
  configured s -> fits s c -> ~ synchronised s -> processBulk s c = Some r -> mapped (pairs s) i ->
  consumed r i <= length (smp (inAt c i))
  /\ (consumed r i = length (smp (inAt c i))
      \/ (selected c = Some i /\ consumed r i = monCap c)
      \/ exists o, In (i, o) (pairs s) /\ length (smp (rOut r o)) = nth o (caps c) 0).
Proof.
  intros H F Hs Hr Hm.
  assert (Ep : pairs s <> []) by (intros E; destruct Hm as (o & Ho); rewrite E in Ho; contradiction).
  destruct (async_call s c H F Ep) as (r' & E & _ & _ & R).
  { apply not_true_is_false. intros Hu. apply Hs. apply useSync_iff; assumption. }
  rewrite Hr in E. injection E as <-. destruct (R i Hm) as (L1 & _ & L2). split; assumption.
Qed.
Print Assumptions C163_input_stops_only_at_a_full_output.

Example ex_full_output : exists r, processBulk exSel exCall = Some r
  /\ consumed r 1 = 2 /\ length (smp (inAt exCall 1)) = 3 /\ length (smp (rOut r 1)) = 2.
Proof.
  destruct (processBulk exSel exCall) as [r|] eqn:E; [|vm_compute in E; discriminate].
  exists r. split; [reflexivity|]. vm_compute in E. injection E as <-. repeat split; vm_compute; reflexivity.
Qed.

(* ---------- C164: combined outputs ---------- *)

(* The claim: an output with several inputs takes one sample of each in turn
   and exactly those are consumed.  It holds when every combined output is
   linked with input 0; missing is every other mapping, for which it is
   false. *)
Theorem C164_combined_output_alternates_partial {A T : Type} (s : sel) (c : call A T) :
  configured s -> fits s c -> synchronised s ->
  (forall o i, 2 <= length (sources (pairs s) o) -> In i (sources (pairs s) o) -> linked (pairs s) 0 i) ->
  exists r, processBulk s c = Some r /\
    forall o i, In (i, o) (pairs s) ->
      annot (rOut r o) = roundRobin (consumed r i) (map (fun j => annot (inAt c j)) (sources (pairs s) o))
      /\ consumed r i <= length (smp (inAt c i)).
Proof.
  intros H F Hs Hl. pose proof (proj2 (useSync_iff s H) Hs) as Hu.
  destruct (configured_groups s H) as (V & G & _).
  assert (Hp : pairs s <> []).
  { intros E. destruct Hs as (_ & o & Ho). rewrite E in Ho. cbn in Ho. lia. }
  destruct (sync_counts s c H F) as (f & E & C1 & C2 & C3).
  (* every group succeeds *)
  assert (Hgroup : forall o i, In (i, o) (pairs s) -> exists n, f i = Some n
     /\ (forall j, In j (sources (pairs s) o) -> n <= avail c j)
     /\ n * length (sources (pairs s) o) <= capAt c o).
  { intros o i Ho. destruct (C1 i) as (n & En & _ & B); [exists o; exact Ho|]. exists n. split; [exact En|].
    destruct (bnd_some c (o, sources (pairs s) o)) as [b Eb]. specialize (B o b Ho Eb).
    destruct (bnd_spec c (o, sources (pairs s) o) b) as (B1 & B2 & _); cbn [fst snd] in *.
    - intros E0. apply in_sources in Ho. rewrite E0 in Ho. contradiction.
    - exact Eb.
    - split; [intros j Hj; specialize (B1 j Hj); lia|nia]. }
  assert (Hout : forall g, In g (outIn s) -> exists out, syncOutput c f g = Some out
     /\ forall i, In i (snd g) -> forall n, f i = Some n ->
        annot out = roundRobin n (map (fun j => annot (inAt c j)) (snd g))).
  { intros [o is] Hin. pose proof (oi_in_group _ _ _ _ _ G Hin) as ->. cbn [snd].
    unfold syncOutput. cbn [fst snd].
    destruct (sources (pairs s) o) as [|k [|k2 l]] eqn:El.
    - exists emptySpan. split; [reflexivity|]. intros ? [].
    - destruct (Hgroup o k) as (n & En & B1 & _); [apply in_sources; rewrite El; left; reflexivity|].
      rewrite En. eexists. split; [reflexivity|]. intros i [ <- |[]] m Em. rewrite En in Em. injection Em as <-.
      rewrite copyTo_annot by apply empty_inside. cbn [map]. rewrite roundRobin_one; [reflexivity|].
      rewrite annot_length. apply B1. rewrite El. left; reflexivity.
    - rewrite <- El in *.
      assert (Hk : In k (sources (pairs s) o)) by (rewrite El; left; reflexivity).
      destruct (Hgroup o k) as (n & En & B1 & B2); [apply in_sources; exact Hk|].
      assert (H0 : f 0 = Some n).
      { rewrite <- En. apply C3. apply (Hl o); [rewrite El; cbn; lia|exact Hk]. }
      rewrite H0.
      destruct (putRows_ok c (capAt c o) (sources (pairs s) o) n 0 emptySpan empty_inside) as (out & Eo & _ & Ao).
      + intros i Hi. cbn. apply B1. exact Hi.
      + cbn. exact B2.
      + exists out. split.
        * rewrite El in Eo |- *. exact Eo.
        * intros i Hi m Em.
          assert (E' : f i = f k).
          { transitivity (f 0); [symmetry|]; apply C3; [apply (Hl o)|]; try (rewrite El; cbn; lia); try assumption.
            apply (Hl o); [rewrite El; cbn; lia|exact Hk]. }
          rewrite Em, En in E'. injection E' as ->. exact Ao. }
  destruct (syncOutputs_total c f (outIn s) (fun _ => emptySpan)) as [outs Eo].
  { intros g Hg. destruct (Hout g Hg) as (out & Eout & _). eauto. }
  assert (Hr : exists r, processBulk s c = Some r).
  { rewrite (processBulk_eq s c H F Hp), Hu. unfold syncBranch. cbn zeta. rewrite E, Eo.
    destruct (monitorStep c f) as [mon f']. eexists; reflexivity. }
  destruct Hr as [r Hr]. exists r. split; [exact Hr|]. intros o i Hio.
  destruct (sync_call s c r H F Hu Hr) as (f2 & D0 & D1 & _ & D3 & D4 & _).
  destruct (D1 i) as (n2 & En2 & _); [exists o; exact Hio|].
  destruct (D0 i n2 En2) as (Ec & L & _). split; [|rewrite Ec; exact L].
  (* the outputs of the result are those computed above *)
  pose proof Hr as Hr2.
  rewrite (processBulk_eq s c H F Hp), Hu in Hr2. unfold syncBranch in Hr2. cbn zeta in Hr2. rewrite E, Eo in Hr2.
  destruct (monitorStep c f) as [mon f'] eqn:Em. injection Hr2 as Hr2.
  destruct (syncOutputs_some c f (outIn s) (fun _ => emptySpan) outs (proj1 (proj2 G)) Eo) as [S1 S2].
  assert (Hin : In (o, sources (pairs s) o) (outIn s)).
  { eapply group_in_oi; [exact G|]. intros E0. apply in_sources in Hio. rewrite E0 in Hio. contradiction. }
  destruct (Hout _ Hin) as (out & Eout & Aout). rewrite (S2 _ Hin) in Eout. cbn [fst] in Eout. injection Eout as <-.
  destruct (Hgroup o i Hio) as (n & En & B1 & B2).
  assert (Ec' : consumed r i = n).
  { rewrite <- Hr2. apply consumed_at.
    - destruct F as [F1 _]. rewrite F1. apply (proj2 V _ _ Hio).
    - destruct (monitor_keeps c f mon f') as (M1 & _); [|exact Em|apply M1; exact En].
      intros k m Ek.
      assert (Hm : mapped (pairs s) k).
      { destruct (In_dec Nat.eq_dec k (map fst (pairs s))) as [Hk|Hk].
        - apply in_map_iff in Hk. destruct Hk as ([a b] & <- & Hk). exists b. exact Hk.
        - exfalso. rewrite C2 in Ek; [discriminate|]. intros (p & Hpk). apply Hk. apply (in_map fst) in Hpk. exact Hpk. }
      destruct Hm as (p & Hkp). destruct (C1 k) as (m' & Em' & _ & B); [exists p; exact Hkp|].
      rewrite Ek in Em'. injection Em' as <-.
      destruct (bnd_some c (p, sources (pairs s) p)) as [b Eb]. specialize (B p b Hkp Eb).
      apply in_sources in Hkp.
      destruct (bnd_spec c (p, sources (pairs s) p) b) as (Q1 & _ & Q3 & _); cbn [fst snd] in *.
      + intros E0. rewrite E0 in Hkp. contradiction.
      + exact Eb.
      + split; [specialize (Q1 k Hkp); lia|]. intros Hsel. specialize (Q3 k Hkp Hsel). lia. }
  rewrite Ec'. rewrite <- Hr2. cbn [rOut]. eapply (Aout i); [|exact En]. apply in_sources. exact Hio.
Qed.
Print Assumptions C164_combined_output_alternates_partial.

(* Whatever the mapping, a combined output is given as many rounds as input 0
   was consumed, not as its own inputs were. *)
Theorem C164_rounds_are_those_of_input_zero {A T : Type} (s : sel) (c : call A T) (r : result A T) (o : nat) :
  configured s -> fits s c -> synchronised s -> processBulk s c = Some r ->
  2 <= length (sources (pairs s) o) ->
  length (smp (rOut r o)) = consumed r 0 * length (sources (pairs s) o).
Proof.
  intros H F Hs Hr Ho. pose proof (proj2 (useSync_iff s H) Hs) as Hu.
  destruct (sync_call s c r H F Hu Hr) as (f & C0 & _ & _ & _ & C4 & _).
  specialize (C4 o). destruct (sources (pairs s) o) as [|k [|k2 l]] eqn:El; [cbn in Ho; lia|cbn in Ho; lia|].
  specialize (C4 ltac:(discriminate)). unfold syncOutput in C4. cbn [fst snd] in C4.
  destruct (f 0) as [n|] eqn:E0; [|discriminate]. destruct (C0 0 n E0) as (-> & _).
  apply putRows_len in C4. exact C4.
Qed.
Print Assumptions C164_rounds_are_those_of_input_zero.

(* With input 0 not mapped at all no call with a combined output is defined:
   the loop runs to the largest size_t and leaves every span, whatever the
   samples and the room. *)
Theorem C164_unmapped_first_input_refuted {A T : Type} (s : sel) (c : call A T) :
  configured s -> fits s c -> synchronised s -> ~ mapped (pairs s) 0 ->
  processBulk s c = None.
Proof.
  intros H F Hs H0. pose proof (proj2 (useSync_iff s H) Hs) as Hu.
  destruct (processBulk s c) as [r|] eqn:Hr; [|reflexivity]. exfalso.
  destruct (sync_call s c r H F Hu Hr) as (f & _ & _ & C2 & _ & C4 & _).
  destruct Hs as (_ & o & Ho). specialize (C4 o).
  destruct (sources (pairs s) o) as [|k [|k2 l]] eqn:El; [cbn in Ho; lia|cbn in Ho; lia|].
  specialize (C4 ltac:(discriminate)). unfold syncOutput in C4. cbn [fst snd] in C4.
  rewrite (C2 0 H0) in C4. discriminate.
Qed.
Print Assumptions C164_unmapped_first_input_refuted.

(* the mapping of the documentation's second picture, with its own output 0
   for input 0: inputs 1 and 2 are combined *)
Definition lossChange : change :=
  mkChange (Some 3) (Some 2) (Some [0; 1; 2]) (Some [0; 1; 1]) None None.
Definition lossSel : sel := fst (settingsChanged lossChange freshSel).
Definition lossCall : call nat nat :=
  mkCall [] [mkSpan [1] []; mkSpan [20; 21; 22] []; mkSpan [30; 31; 32] []] 0 [9; 9].

(* Three samples of inputs 1 and 2 are consumed each, two arrive. *)
Theorem C164_samples_lost_refuted :
  exists (s : sel) (c : call nat nat) (r : result nat nat),
    configured s /\ fits s c /\ synchronised s /\ processBulk s c = Some r
    /\ sources (pairs s) 1 = [1; 2]
    /\ consumed r 1 = 3 /\ consumed r 2 = 3
    /\ map fst (annot (rOut r 1)) = [20; 30].
Proof.
  exists lossSel, lossCall. destruct (processBulk lossSel lossCall) as [r|] eqn:E; [|vm_compute in E; discriminate].
  exists r. split; [exists lossChange, freshSel; split; [left; discriminate|vm_compute; reflexivity]|].
  split; [split; reflexivity|]. split; [split; [reflexivity|exists 1; vm_compute; lia]|]. split; [reflexivity|].
  vm_compute in E. injection E as <-. repeat split; vm_compute; reflexivity.
Qed.
Print Assumptions C164_samples_lost_refuted.

Definition syncChange : change :=
  mkChange (Some 3) (Some 2) (Some [0; 2; 2; 1]) (Some [0; 0; 1; 1]) None None.
Definition syncSel : sel := fst (settingsChanged syncChange freshSel).
Definition syncCall : call nat nat :=
  mkCall [1] [mkSpan [10; 11; 12] []; mkSpan [20; 21] [(1, 5)]; mkSpan [30; 31; 32] [(0, 6)]] 7 [9; 5].

Example ex_sync_hyps : configured syncSel /\ fits syncSel syncCall /\ synchronised syncSel
  /\ forall o i, 2 <= length (sources (pairs syncSel) o) -> In i (sources (pairs syncSel) o) -> linked (pairs syncSel) 0 i.
Proof.
  split; [exists syncChange, freshSel; split; [left; discriminate|vm_compute; reflexivity]|].
  split; [split; reflexivity|]. split; [split; [reflexivity|exists 0; vm_compute; lia]|].
  assert (L2 : linked (pairs syncSel) 0 2) by (apply rt_step; exists 0; vm_compute; auto).
  assert (L1 : linked (pairs syncSel) 0 1).
  { eapply rt_trans; [exact L2|]. apply rt_step; exists 1; split; vm_compute; auto 10. }
  intros o i _ Hi. apply in_sources in Hi. vm_compute in Hi.
  destruct Hi as [Hi|[Hi|[Hi|[Hi|[]]]]]; injection Hi as <- <-; try assumption. apply rt_refl.
Qed.
Example ex_sync_out :
  option_map (fun r => (annot (rOut r 0), annot (rOut r 1), annot (rMon r), rCons r)) (processBulk syncSel syncCall)
  = Some ([(10, []); (30, [6]); (11, []); (31, [])], [(30, [6]); (20, []); (31, []); (21, [5])],
          [(20, []); (21, [5])], [2; 2; 2]).
Proof. vm_compute. reflexivity. Qed.
Example ex_unmapped_first : let s := fst (settingsChanged
     (mkChange (Some 3) (Some 1) (Some [1; 2]) (Some [0; 0]) None None) freshSel) in
  configured s /\ synchronised s /\ ~ mapped (pairs s) 0.
Proof.
  cbn zeta. split; [|split].
  - exists (mkChange (Some 3) (Some 1) (Some [1; 2]) (Some [0; 0]) None None), freshSel.
    split; [left; discriminate|vm_compute; reflexivity].
  - split; [reflexivity|exists 0; vm_compute; lia].
  - intros (o & Ho). vm_compute in Ho. destruct Ho as [Ho|[Ho|[]]]; discriminate.
Qed.

(* ---------- C165: common counts ---------- *)

(* The loop over the dependencies ends, for every mapping and every call. *)
Theorem C165_levelling_ends {A T : Type} (s : sel) (c : call A T) :
  configured s -> fits s c ->
  levelLoop (levelFuel (length (ins c)) (firstCounts c (outIn s))) (outIn s) (firstCounts c (outIn s)) <> None.
Proof. intros H F. destruct (sync_counts s c H F) as (f & E & _). rewrite E. discriminate. Qed.
Print Assumptions C165_levelling_ends.

(* Linked inputs are consumed equally, never beyond what one of them or one of
   their outputs allows, and as far as that allows. *)
Theorem C165_linked_inputs_advance_together {A T : Type} (s : sel) (c : call A T) (r : result A T) (i : nat) :
  configured s -> fits s c -> synchronised s -> processBulk s c = Some r -> mapped (pairs s) i ->
  (forall j, linked (pairs s) i j -> consumed r j = consumed r i)
  /\ (forall j o, linked (pairs s) i j -> In (j, o) (pairs s) ->
        consumed r i <= length (smp (inAt c j))
        /\ consumed r i * length (sources (pairs s) o) <= nth o (caps c) 0
        /\ (selected c = Some j -> consumed r i <= monCap c))
  /\ (exists j o, linked (pairs s) i j /\ In (j, o) (pairs s) /\
        (consumed r i = length (smp (inAt c j))
         \/ nth o (caps c) 0 < S (consumed r i) * length (sources (pairs s) o)
         \/ (selected c = Some j /\ consumed r i = monCap c))).
Proof.
  intros H F Hs Hr Hi. pose proof (proj2 (useSync_iff s H) Hs) as Hu.
  destruct (sync_call s c r H F Hu Hr) as (f & C0 & C1 & _ & C3 & _).
  destruct (C1 i Hi) as (n & En & (j & o & L & Hj & Eb) & B).
  assert (Hall : forall k, linked (pairs s) i k -> f k = Some n) by (intros k Lk; rewrite <- (C3 i k Lk); exact En).
  destruct (C0 i n En) as (Ec & _). rewrite Ec. split; [|split].
  - intros k Lk. apply (C0 k n (Hall k Lk)).
  - intros k p Lk Hk. destruct (C1 k) as (m & Em & _ & Bk); [exists p; exact Hk|].
    rewrite (Hall k Lk) in Em. injection Em as <-.
    destruct (bnd_some c (p, sources (pairs s) p)) as [b Eb']. specialize (Bk p b Hk Eb').
    apply in_sources in Hk.
    destruct (bnd_spec c (p, sources (pairs s) p) b) as (Q1 & Q2 & Q3 & _); cbn [fst snd] in *.
    + intros E0. rewrite E0 in Hk. contradiction.
    + exact Eb'.
    + split; [|split].
      * specialize (Q1 k Hk). unfold avail in Q1. lia.
      * unfold capAt in Q2. nia.
      * intros Hsel. specialize (Q3 k Hk Hsel). lia.
  - apply in_sources in Hj.
    destruct (bnd_spec c (o, sources (pairs s) o) n) as (_ & _ & _ & Q); cbn [fst snd] in *.
    + intros E0. rewrite E0 in Hj. contradiction.
    + exact Eb.
    + assert (Lin : forall k, In k (sources (pairs s) o) -> linked (pairs s) i k).
      { intros k Hk. eapply rt_trans; [exact L|]. apply rt_step. exists o. split; apply in_sources; assumption. }
      destruct Q as [(k & Hk & E)|[E|((k & Hk & Es) & E)]].
      * exists k, o. split; [apply Lin; exact Hk|]. split; [apply in_sources; exact Hk|]. left. exact E.
      * exists j, o. split; [exact L|]. split; [apply in_sources; exact Hj|]. right; left. exact E.
      * exists k, o. split; [apply Lin; exact Hk|]. split; [apply in_sources; exact Hk|]. right; right. auto.
Qed.
Print Assumptions C165_linked_inputs_advance_together.

(* three inputs linked through two outputs: see ex_sync_hyps and ex_sync_out,
   where input 1 and output 1 hold back input 0 *)

(* ---------- C166: the monitor ---------- *)

(* In a call that brings a select sample for an existing input the monitor
   shows exactly what is consumed of that input, whether or not the input is
   mapped; in a call without one it shows nothing. *)
Theorem C166_monitor_shows_what_is_consumed {A T : Type} (s : sel) (c : call A T) (r : result A T) (q : list nat) (i : nat) :
  configured s -> fits s c -> pairs s <> [] -> processBulk s c = Some r ->
  selq c = q ++ [i] -> i < nIn s ->
  annot (rMon r) = firstn (consumed r i) (annot (inAt c i)) /\ rSel r = length (selq c).
Proof.
  intros H F Hp Hr Hq Hi. destruct (configured_groups s H) as (V & G & _).
  assert (Hsel : selected c = Some i).
  { unfold selected. rewrite Hq. clear. destruct q as [|x q]; cbn [app]; [reflexivity|].
    f_equal. apply last_last. }
  assert (Hi' : i < length (ins c)) by (destruct F as [F1 _]; rewrite F1; exact Hi).
  assert (K : exists outs f, (forall k n, f k = Some n -> n <= avail c k /\ (selected c = Some k -> n <= monCap c))
     /\ processBulk s c = (let '(mon, f') := monitorStep c f in
      Some (mkResult outs mon (map (finalCount s c f') (seq 0 (length (ins c)))) (length (selq c))))).
  { rewrite (processBulk_eq s c H F Hp). destruct (useSync s) eqn:Hu.
    - destruct (sync_call s c r H F Hu Hr) as (f0 & _).
      destruct (sync_counts s c H F) as (f & E & C1 & C2 & C3). unfold syncBranch. cbn zeta. rewrite E.
      destruct (syncOutputs c f (outIn s) (fun _ => emptySpan)) as [outs|] eqn:Eo.
      + exists outs, f. split; [|reflexivity]. intros k m Ek.
        assert (Hm : mapped (pairs s) k).
        { destruct (In_dec Nat.eq_dec k (map fst (pairs s))) as [Hk|Hk].
          - apply in_map_iff in Hk. destruct Hk as ([a b] & <- & Hk). exists b. exact Hk.
          - exfalso. rewrite C2 in Ek; [discriminate|]. intros (p & Hpk). apply Hk. apply (in_map fst) in Hpk. exact Hpk. }
        destruct Hm as (p & Hkp). destruct (C1 k) as (m' & Em' & _ & B); [exists p; exact Hkp|].
        rewrite Ek in Em'. injection Em' as <-.
        destruct (bnd_some c (p, sources (pairs s) p)) as [b Eb]. specialize (B p b Hkp Eb).
        apply in_sources in Hkp.
        destruct (bnd_spec c (p, sources (pairs s) p) b) as (Q1 & _ & Q3 & _); cbn [fst snd] in *.
        * intros E0. rewrite E0 in Hkp. contradiction.
        * exact Eb.
        * split; [specialize (Q1 k Hkp); lia|]. intros Hsk. specialize (Q3 k Hkp Hsk). lia.
      + exfalso. rewrite (processBulk_eq s c H F Hp), Hu in Hr. unfold syncBranch in Hr. cbn zeta in Hr.
        rewrite E, Eo in Hr. discriminate.
    - destruct (asyncBranch_ok c (inOut s) (fun _ => emptySpan) (fun _ => None)) as (outs & f & E & R1 & R2 & R3 & R4).
      + apply G.
      + intros [k os] Hin. rewrite (io_in_group _ _ _ _ _ G Hin). cbn. apply NoDup_sinks, V.
      + intros o. split; [apply empty_inside|cbn; lia].
      + rewrite E. exists outs, f. split; [|reflexivity].
        intros k n En. destruct (In_dec Nat.eq_dec k (map fst (inOut s))) as [Hin|Hin].
        * apply in_map_iff in Hin. destruct Hin as ([j os] & <- & Hin). cbn in *.
          destruct (R4 j os Hin) as (m & Em' & L1 & L2 & _). rewrite En in Em'. injection Em' as <-.
          split; [exact L1|]. intros Hsk. apply L2. apply isSel_iff. exact Hsk.
        * rewrite R3 in En by exact Hin. discriminate. }
  destruct K as (outs & f & Hb & E). rewrite Hr in E. destruct (monitorStep c f) as [mon f'] eqn:Em.
  injection E as ->. destruct (monitor_keeps c f mon f' Hb Em) as (_ & _ & _ & M & _).
  destruct (M i Hsel Hi') as (n & En & L & ->). cbn [rMon rSel]. split; [|reflexivity].
  rewrite (consumed_at s c f' outs _ n i Hi' En). rewrite copyTo_annot by apply empty_inside. reflexivity.
Qed.
Print Assumptions C166_monitor_shows_what_is_consumed.

(* The claim: the select port chooses the input that the monitor follows.  The
   choice lasts for one call only: a call without a select sample forgets it. *)
Theorem C166_choice_is_forgotten_refuted {A T : Type} (s : sel) (c : call A T) (r : result A T) :
  processBulk s c = Some r -> selq c = [] -> annot (rMon r) = [].
Proof.
  unfold processBulk. intros H Hq. assert (Hs : selected c = None) by (unfold selected; rewrite Hq; reflexivity).
  destruct (inOut s); [injection H as <-; reflexivity|].
  destruct (inRange s c); [|discriminate].
  destruct (if useSync s then _ else _) as [[outs f]|]; [|discriminate].
  unfold monitorStep in H. rewrite Hs in H. injection H as <-. reflexivity.
Qed.
Print Assumptions C166_choice_is_forgotten_refuted.

(* With no mapping the select port is never read and the monitor stays silent,
   whatever was selected. *)
Theorem C166_no_mapping_no_monitor_refuted {A T : Type} (s : sel) (c : call A T) :
  configured s -> pairs s = [] ->
  exists r, processBulk s c = Some r /\ rSel r = 0 /\ annot (rMon r) = [].
Proof.
  intros H Hp. destruct (configured_groups s H) as (_ & G & _). unfold processBulk.
  rewrite (proj2 (inOut_empty _ _ _ G) Hp). eexists; split; [reflexivity|]. split; reflexivity.
Qed.
Print Assumptions C166_no_mapping_no_monitor_refuted.

Example ex_monitor : selq syncCall = [] ++ [1] /\ pairs syncSel <> [] /\ 1 < nIn syncSel.
Proof. split; [reflexivity|]. split; [vm_compute; discriminate|vm_compute; lia]. Qed.
(* one select sample, then two calls with data: only the first reaches the
   monitor *)
Example ex_forgotten :
  let c1 := mkCall [0] [mkSpan [1; 2] []] 9 [9] : call nat nat in
  let c2 := mkCall [] [mkSpan [3; 4] []] 9 [9] : call nat nat in
  let s := fst (settingsChanged (mkChange (Some 1) (Some 1) (Some [0]) (Some [0]) None None) freshSel) in
  option_map (fun r => smp (rMon r)) (processBulk s c1) = Some [1; 2]
  /\ option_map (fun r => smp (rMon r)) (processBulk s c2) = Some [].
Proof. split; vm_compute; reflexivity. Qed.
Example ex_no_mapping : configured (fst (settingsChanged
    (mkChange (Some 1) (Some 1) (Some []) (Some []) None None) freshSel)).
Proof.
  exists (mkChange (Some 1) (Some 1) (Some []) (Some []) None None), freshSel.
  split; [left; discriminate|vm_compute; reflexivity].
Qed.

(* ---------- C167: inputs without an output ---------- *)

(* An input that is mapped nowhere is read to its end, or not at all if
   back_pressure is set; only the monitor makes a difference. *)
Theorem C167_unmapped_inputs {A T : Type} (s : sel) (c : call A T) (r : result A T) (i : nat) :
  configured s -> fits s c -> processBulk s c = Some r -> i < nIn s -> ~ mapped (pairs s) i ->
  (pairs s <> [] -> selected c = Some i -> consumed r i = Nat.min (length (smp (inAt c i))) (monCap c))
  /\ (pairs s = [] \/ selected c <> Some i ->
        consumed r i = if backPressure s then 0 else length (smp (inAt c i))).
Proof.
  intros H F Hr Hi Hm. destruct (configured_groups s H) as (V & G & _).
  destruct (list_eq_dec pair_dec (pairs s) []) as [Ep|Ep].
  - split; [congruence|]. intros _. unfold processBulk in Hr.
    rewrite (proj2 (inOut_empty _ _ _ G) Ep) in Hr. injection Hr as <-. unfold consumed; cbn [rCons].
    destruct F as [F1 _].
    pose (h := fun sp : span A T => if backPressure s then 0 else length (smp sp)).
    change (nth i (map h (ins c)) 0 = h (nth i (ins c) emptySpan)).
    rewrite (nth_indep _ 0 (h emptySpan)) by (rewrite map_length, F1; exact Hi).
    apply map_nth.
  - assert (Hi' : i < length (ins c)) by (destruct F as [F1 _]; rewrite F1; exact Hi).
    assert (K : exists outs f, (forall k n, f k = Some n -> n <= avail c k /\ (selected c = Some k -> n <= monCap c))
     /\ f i = None
     /\ Some r = (let '(mon, f') := monitorStep c f in
      Some (mkResult outs mon (map (finalCount s c f') (seq 0 (length (ins c)))) (length (selq c))))).
    { rewrite (processBulk_eq s c H F Ep) in Hr. destruct (useSync s) eqn:Hu.
      - destruct (sync_counts s c H F) as (f & E & C1 & C2 & C3). unfold syncBranch in Hr. cbn zeta in Hr. rewrite E in Hr.
        destruct (syncOutputs c f (outIn s) (fun _ => emptySpan)) as [outs|] eqn:Eo; [|discriminate].
        exists outs, f. split; [|split; [apply C2; exact Hm|symmetry; exact Hr]]. intros k m Ek.
        assert (Hmk : mapped (pairs s) k).
        { destruct (In_dec Nat.eq_dec k (map fst (pairs s))) as [Hk|Hk].
          - apply in_map_iff in Hk. destruct Hk as ([a b] & <- & Hk). exists b. exact Hk.
          - exfalso. rewrite C2 in Ek; [discriminate|]. intros (p & Hpk). apply Hk. apply (in_map fst) in Hpk. exact Hpk. }
        destruct Hmk as (p & Hkp). destruct (C1 k) as (m' & Em' & _ & B); [exists p; exact Hkp|].
        rewrite Ek in Em'. injection Em' as <-.
        destruct (bnd_some c (p, sources (pairs s) p)) as [b Eb]. specialize (B p b Hkp Eb).
        apply in_sources in Hkp.
        destruct (bnd_spec c (p, sources (pairs s) p) b) as (Q1 & _ & Q3 & _); cbn [fst snd] in *.
        + intros E0. rewrite E0 in Hkp. contradiction.
        + exact Eb.
        + split; [specialize (Q1 k Hkp); lia|]. intros Hsk. specialize (Q3 k Hkp Hsk). lia.
      - destruct (asyncBranch_ok c (inOut s) (fun _ => emptySpan) (fun _ => None)) as (outs & f & E & R1 & R2 & R3 & R4).
        + apply G.
        + intros [k os] Hin. rewrite (io_in_group _ _ _ _ _ G Hin). cbn. apply NoDup_sinks, V.
        + intros o. split; [apply empty_inside|cbn; lia].
        + rewrite E in Hr. exists outs, f. split; [|split; [|symmetry; exact Hr]].
          * intros k n En. destruct (In_dec Nat.eq_dec k (map fst (inOut s))) as [Hin|Hin].
            -- apply in_map_iff in Hin. destruct Hin as ([j os] & <- & Hin). cbn in *.
               destruct (R4 j os Hin) as (m & Em' & L1 & L2 & _). rewrite En in Em'. injection Em' as <-.
               split; [exact L1|]. intros Hsk. apply L2. apply isSel_iff. exact Hsk.
            -- rewrite R3 in En by exact Hin. discriminate.
          * apply R3. intros Hin. apply in_map_iff in Hin. destruct Hin as ([j os] & <- & Hin). cbn in *.
            pose proof (io_in_group _ _ _ _ _ G Hin) as ->.
            destruct G as (_ & _ & G3 & _). unfold full in G3. rewrite Forall_forall in G3. specialize (G3 _ Hin).
            cbn in G3. destruct (sinks (pairs s) j) as [|o l] eqn:Eo; [congruence|].
            apply Hm. exists o. apply in_sinks. rewrite Eo. left; reflexivity. }
    destruct K as (outs & f & Hb & Hf & E). destruct (monitorStep c f) as [mon f'] eqn:Em. injection E as ->.
    destruct (monitor_keeps c f mon f' Hb Em) as (_ & M2 & M3 & _). split.
    + intros _ Hs. rewrite (consumed_at s c f' outs mon _ i Hi' (M3 i Hf Hs Hi')). reflexivity.
    + intros [E|Hs]; [congruence|]. rewrite (consumed_none s c f' outs mon i Hi' (M2 i Hf (or_introl Hs))). reflexivity.
Qed.
Print Assumptions C167_unmapped_inputs.

Example ex_unmapped :
  let s b := fst (settingsChanged (mkChange (Some 2) (Some 1) (Some [0]) (Some [0]) (Some b) None) freshSel) in
  let c := mkCall [] [mkSpan [1] []; mkSpan [2; 3] []] 9 [9] : call nat nat in
  option_map rCons (processBulk (s false) c) = Some [1; 2]
  /\ option_map rCons (processBulk (s true) c) = Some [1; 0]
  /\ ~ mapped (pairs (s true)) 1.
Proof.
  cbn zeta. split; [vm_compute; reflexivity|]. split; [vm_compute; reflexivity|].
  intros (o & Ho). vm_compute in Ho. destruct Ho as [Ho|[]]; discriminate.
Qed.

(* ---------- C168: the check of the mapping ---------- *)

(* An accepted mapping names existing ports and has no pair twice. *)
Theorem C168_accepted_mapping_is_valid (s : sel) :
  configured s ->
  length (mapIn s) = length (mapOut s) /\ NoDup (pairs s)
  /\ forall i o, In (i, o) (pairs s) -> i < nIn s /\ o < nOut s.
Proof. intros H. destruct (configured_groups s H) as ((V1 & V2) & _ & L). auto. Qed.
Print Assumptions C168_accepted_mapping_is_valid.

Lemma mapped_out_of_range {A T : Type} (s : sel) (c : call A T) g i :
  inOut s <> [] -> In g (outIn s) -> In i (snd g) -> length (ins c) <= i -> processBulk s c = None.
Proof.
  intros Hn Hg Hi Hl. unfold processBulk. destruct (inOut s) as [|x l]; [congruence|].
  replace (inRange s c) with false; [reflexivity|]. symmetry. apply not_true_is_false. intros E.
  unfold inRange in E. rewrite forallb_forall in E. specialize (E g Hg). apply andb_true_iff in E.
  destruct E as [_ E]. rewrite forallb_forall in E. specialize (E i Hi). apply Nat.ltb_lt in E. lia.
Qed.

(* The claim: what is refused has no effect.  A refused pair has already been
   entered into the maps: after the exception every call with the block's own
   ports leaves the spans. *)
Theorem C168_refused_mapping_is_kept_refuted {A T : Type} (s0 : sel) (i o : nat) :
  nIn s0 <= i ->
  exists s, settingsChanged (mkChange None None (Some [i]) (Some [o]) None None) s0 = (s, Some ErrInput)
    /\ forall c : call A T, fits s c -> processBulk s c = None.
Proof.
  intros Hi. unfold settingsChanged. cbn [cIn cOut cMapIn cMapOut cBack cSync orKeep length Nat.eqb combine buildMaps seenPair existsb].
  rewrite (proj2 (Nat.leb_le _ _) Hi). eexists; split; [reflexivity|].
  intros c (F1 & _). cbn [nIn] in F1. eapply (mapped_out_of_range _ c (o, [i]) i).
  - discriminate.
  - left; reflexivity.
  - left; reflexivity.
  - lia.
Qed.
Print Assumptions C168_refused_mapping_is_kept_refuted.

(* The claim: the mapping is checked against the ports.  Fewer inputs are
   accepted without a look at the mapping. *)
Theorem C168_fewer_inputs_not_checked_refuted {A T : Type} (s0 : sel) (i o n : nat) :
  configured s0 -> In (i, o) (pairs s0) -> n <= i ->
  exists s, settingsChanged (mkChange (Some n) None None None None None) s0 = (s, None)
    /\ forall c : call A T, fits s c -> processBulk s c = None.
Proof.
  intros H Hin Hn. destruct (configured_groups s0 H) as (V & G & _).
  unfold settingsChanged. cbn [cIn cOut cMapIn cMapOut cBack cSync orKeep].
  eexists; split; [reflexivity|]. intros c (F1 & _). cbn [nIn] in F1.
  apply (mapped_out_of_range _ c (o, sources (pairs s0) o) i); cbn [inOut outIn snd].
  - apply nonempty_pairs; [exact H|]. intros E; rewrite E in Hin; contradiction.
  - eapply group_in_oi; [exact G|]. intros E. apply in_sources in Hin. rewrite E in Hin. contradiction.
  - apply in_sources. exact Hin.
  - lia.
Qed.
Print Assumptions C168_fewer_inputs_not_checked_refuted.

Example ex_fewer : configured exSel /\ In (2, 0) (pairs exSel).
Proof. split; [exact ex_configured|vm_compute; auto]. Qed.
Example ex_refused : nIn exSel <= 3.
Proof. vm_compute. lia. Qed.
