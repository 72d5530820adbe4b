(** Properties of block settings: C113 - C122. *)
From Coq Require Import List NArith Arith Lia Bool Sorting.Sorted.
From Coq Require Import ZifyBool ZifyNat ZifyN.
From Verif Require Import SettModel SettSpec SettProofs SettHistProofs SettRunProofs SettMoreProofs.
Import ListNotations.
Local Open Scope N_scope.

(** A block with three writable members; values below 1000 have the right type, below 100 they are accepted; member 2 is
    forwarded.  [sx]: the block initialised at time 100 with member 1 given explicitly. *)
Definition Bx : bdesc :=
  mkB [1; 2; 3] (fun _ v => if v <? 1000 then Some v else None) (fun _ v => v <? 1000) (fun _ v => v <? 100) (fun k => k =? 2).
Definition fx : pmap := [(1, 1); (2, 2); (3, 3)].
Definition sx : st := match initBlock Bx nullPred 0 (blank fx) 100 101 102 [(1, 11)] with Some s => s | None => blank [] end.

Lemma sane_Bx : sane Bx.
Proof.
  split; cbn; intros k v.
  - intros v'. destruct (v <? 1000) eqn:E; [|discriminate]. intros H. injection H as <-. exact E.
  - intros H. rewrite H. reflexivity.
Qed.

Lemma typed_fx : typed Bx fx.
Proof. intros k v [E|[E|[E|[]]]]; injection E as <- <-; reflexivity. Qed.

Lemma noDup_fx : noDup fx.
Proof. unfold noDup. cbn. repeat constructor; cbn; intuition discriminate. Qed.

Lemma convertible_Bx ps : forallb (fun kv => snd kv <? 1000) ps = true -> convertible Bx ps.
Proof. intros H k v Hi _. rewrite forallb_forall in H. specialize (H _ Hi). cbn in H |- *. rewrite H. discriminate. Qed.

Lemma fair_set k a b c ps : forallb (fun kv => snd kv <? 100) ps = true -> fair Bx k (USet a b c ps).
Proof.
  intros H. rewrite forallb_forall in H. split.
  - apply convertible_Bx. apply forallb_forall. intros x Hx. specialize (H x Hx). lia.
  - intros v v' El Ec. apply lastIn_in in El. specialize (H _ El). cbn in H, Ec |- *. destruct (v <? 1000); [|discriminate]. congruence.
Qed.

Lemma fair_stage k ps : forallb (fun kv => snd kv <? 100) ps = true -> fairStage Bx k (AStage ps).
Proof. intros H. exact (fair_set k 0 0 0 ps H). Qed.

Ltac fairs := repeat (apply Forall_cons;
  [first [exact I | apply fair_set; reflexivity | apply fair_stage; reflexivity | split; [apply convertible_Bx; reflexivity|reflexivity]]|]);
  apply Forall_nil.

(* ------------------------------------------------------------------ C113 *)

(** C113: over every history of operations, asking for the stored values of a context at any time not before the last
    clock reading gives what a complete, never purged log of everything ever stored says. *)
Theorem C113_stored_values_match_log : forall B fuel f os,
  ascending 1 (flat_map readings os) ->
  distinctTimes (logOf B nullPred fuel (blank f) [] os) ->
  forall n t now, lastReading 1 (flat_map readings os) <= t -> t <> 0 ->
    getStored nullPred fuel (runS B nullPred fuel (blank f) os) now (t, n)
      = current (logOf B nullPred fuel (blank f) [] os) n t
    /\ (now = t -> getStored nullPred fuel (runS B nullPred fuel (blank f) os) now (0, n)
      = current (logOf B nullPred fuel (blank f) [] os) n t).
Proof.
  intros B fuel f os Ha Hd n t now Ht Ht0.
  assert (I0 : inv (blank f) [] 1).
  { split; [reflexivity|]. split; [constructor|]. intros n'. split; [constructor|]. intros e. split; [intros []|intros [[] _]]. }
  destruct (inv_run B fuel os (blank f) [] 1 1 ltac:(lia) ltac:(lia) I0 Ha Hd) as (now' & H1 & H2 & H3).
  assert (G : getBest nullPred fuel (runS B nullPred fuel (blank f) os) (t, n) = current (logOf B nullPred fuel (blank f) [] os) n t).
  { apply (lookup_agree fuel _ _ now' n t H3 Ht0). intros e _ Hr. lia. }
  unfold getStored, timed. cbn [fst snd]. destruct (N.eqb_spec t 0); [contradiction|]. split; [exact G|]. intros ->. exact G.
Qed.
Print Assumptions C113_stored_values_match_log.

(** A history with a past, a present and a future entry, two contexts, a refused set, a tag, a reset. *)
Definition histx : list op :=
  [ OStoreDefaults; OSet 100 101 [(1, 11)] (0, 0); OActivate 102 (0, 0); OApply;
    OSet 110 111 [(2, 22)] (500, 0); OSet 120 121 [(3, 33)] (0, 7); OSet 130 131 [(1, 44)] (105, 0);
    OSet 140 141 [(1, 2000)] (0, 0); OTag 150 151 (mkT [(2, 9)] (Some 7) None); OReset 160 161 162;
    OSet 600 601 [(3, 5)] (0, 0) ].

Example C113_stored_values_match_log_case :
  ascending 1 (flat_map readings histx) /\ distinctTimes (logOf Bx nullPred 0 (blank fx) [] histx)
  /\ getStored nullPred 0 (runS Bx nullPred 0 (blank fx) histx) 700 (0, 0) = Some [(1, 11); (2, 22); (3, 5)]
  /\ getStored nullPred 0 (runS Bx nullPred 0 (blank fx) histx) 0 (601, 7) = Some [(1, 1); (2, 2); (3, 33)]
  /\ length (logOf Bx nullPred 0 (blank fx) [] histx) = 6%nat.
Proof.
  split; [cbn; lia|]. split; [unfold distinctTimes; vm_compute; repeat constructor; cbn; intuition discriminate|]. vm_compute. auto.
Qed.

(** Two sets of values for the same time: the newer one is dropped, the older one answers. *)
Theorem C113_same_time_refuted : exists os n t v v',
  ascending 1 (flat_map readings os) /\ lastReading 1 (flat_map readings os) <= t
  /\ option_map (fun m => pget m 1) (getStored nullPred 0 (runS Bx nullPred 0 (blank fx) os) 0 (t, n)) = Some (Some v)
  /\ option_map (fun m => pget m 1) (current (logOf Bx nullPred 0 (blank fx) [] os) n t) = Some (Some v') /\ v <> v'.
Proof.
  exists [OSet 200 201 [(1, 10)] (150, 0); OSet 202 203 [(1, 20)] (150, 0)], 0, 300, 10, 20.
  split; [cbn; lia|]. split; [vm_compute; discriminate|]. split; [vm_compute; reflexivity|]. split; [vm_compute; reflexivity|lia].
Qed.
Print Assumptions C113_same_time_refuted.

(* ------------------------------------------------------------------ C114 *)

(** C114: activating a context of another name, with nothing pending, and applying gives the block exactly the values
    stored for that context; members the context does not mention, or whose value is not accepted, keep theirs. *)
Theorem C114_switching_applies_context : forall B pred fuel s now c b,
  snd (activate B pred fuel s now c) = Some (Some b) -> snd b <> snd (actx s) -> staged s = [] ->
  exists m, getStored pred fuel s now c = Some m
  /\ actx (applyChanged B (fst (activate B pred fuel s now c))) = b
  /\ forall k, pget (fields (applyChanged B (fst (activate B pred fuel s now c)))) k
       = match pget m k with
         | Some v => if has k (writ B) && (holds B k v && valid B k v) then Some v else pget (fields s) k
         | None => pget (fields s) k
         end.
Proof.
  intros B pred fuel s now c b Ha Hn Hst.
  destruct (activate_other B pred fuel s now c b) as (m & H1 & H2 & H3 & H4); [|exact Hn|].
  { destruct (activate B pred fuel s now c) as [s' r]. cbn [fst snd] in *. rewrite Ha. reflexivity. }
  exists m. split; [exact H1|]. destruct (activate_frame B pred fuel s now c) as (_ & _ & _ & _ & F5).
  set (s' := fst (activate B pred fuel s now c)) in *. unfold applyChanged. rewrite H3. unfold applyStaged.
  rewrite Hst in H2.
  assert (Hnd : noDup (staged s')) by (rewrite H2; apply pinsAll_noDup; constructor).
  pose proof (applyLoop_get B (staged s') (fields s') [] []) as HG.
  destruct (applyLoop B (staged s') (fields s') [] []) as [[f ap] fw]. cbn [fst fields actx] in HG |- *. split; [exact H4|].
  intros k. rewrite HG by exact Hnd. rewrite H2, pget_pinsAll, F5. reflexivity.
Qed.
Print Assumptions C114_switching_applies_context.

Example C114_switching_applies_context_case :
  let s := fst (set Bx nullPred 0 sx 200 201 [(2, 50); (3, 500)] (0, 7)) in
  snd (activate Bx nullPred 0 s 202 (0, 7)) = Some (Some (200, 7)) /\ snd (actx s) = 0 /\ staged s = []
  /\ fields (applyChanged Bx (fst (activate Bx nullPred 0 s 202 (0, 7)))) = [(1, 11); (2, 50); (3, 3)].
Proof. vm_compute. auto. Qed.

(** C114: activating a newer entry of the context that is already active applies the stored values of every name that is
    not left to tags; names left to tags keep their value. *)
Theorem C114_newer_entry_applies : forall B pred fuel s now c b m au, sane B ->
  findBest pred fuel s (timed now c) = Some b -> getStored pred fuel s now c = Some m ->
  snd b = snd (actx s) -> b <> actx s -> aget (autoU s) b = Some au -> noDup m -> typed B m -> staged s = [] ->
  forall k, has k (writ B) = true -> pget (fields (applyChanged B (fst (activate B pred fuel s now c)))) k
    = match pget m k with
      | Some v => if negb (has k au) && valid B k v then Some v else pget (fields s) k
      | None => pget (fields s) k
      end.
Proof.
  intros B pred fuel s now c b m au Hs Hf Hg Hn Hne Ha Hm Ht Hst k Hk.
  destruct (activate_newer B pred fuel s now c b m au Hs Hf Hg ltac:(congruence) ltac:(congruence) Ha Hm Ht ltac:(rewrite Hst; constructor))
    as (s' & E & _ & _ & A3 & A4 & A5).
  destruct (activate_frame B pred fuel s now c) as (_ & _ & _ & _ & F5). rewrite E in F5 |- *. cbn [fst] in F5 |- *.
  unfold applyChanged. rewrite A3. unfold applyStaged. pose proof (applyLoop_get B (staged s') (fields s') [] [] k A4) as HG.
  destruct (applyLoop B (staged s') (fields s') [] []) as [[f ap] fw]. cbn [fst fields] in HG |- *. rewrite HG, (A5 k Hk), Hst, F5, Hk.
  cbn [pget]. destruct (has k au); cbn [negb andb]; [destruct (pget m k); reflexivity|].
  destruct (pget m k) as [v|] eqn:Ev; [|reflexivity]. unfold okVal. rewrite (Ht k v (pget_in _ _ _ Ev)). reflexivity.
Qed.
Print Assumptions C114_newer_entry_applies.

Example C114_newer_entry_applies_case :
  let s := fst (set Bx nullPred 0 sx 200 201 [(3, 50)] (0, 0)) in
  findBest nullPred 0 s (timed 202 (0, 0)) = Some (200, 0) /\ getStored nullPred 0 s 202 (0, 0) = Some [(1, 11); (2, 2); (3, 50)]
  /\ actx s = (100, 0) /\ aget (autoU s) (200, 0) = Some [2] /\ staged s = []
  /\ fields (applyChanged Bx (fst (activate Bx nullPred 0 s 202 (0, 0)))) = [(1, 11); (2, 2); (3, 50)].
Proof. vm_compute. repeat (split; [reflexivity|]). reflexivity. Qed.

(** Values set for the time of the active entry are never applied, although set and activateContext report success. *)
Theorem C114_same_time_refuted : exists s1 s2 b,
  set Bx nullPred 0 (runS Bx nullPred 0 sx (uprog [USet 200 201 202 [(3, 30)]; UApply])) 300 301 [(3, 40)] (200, 0) = (s1, Some [])
  /\ activate Bx nullPred 0 s1 302 (0, 0) = (s2, Some (Some b)) /\ pget (fields (applyChanged Bx s2)) 3 = Some 30.
Proof. eexists _, _, _. split; [vm_compute; reflexivity|]. split; [vm_compute; reflexivity|]. vm_compute. reflexivity. Qed.
Print Assumptions C114_same_time_refuted.

(** A pending staged value wins over the value of the context that is switched to. *)
Theorem C114_pending_refuted : exists s b m,
  snd (activate Bx nullPred 0 s 202 (0, 7)) = Some (Some b) /\ snd b <> snd (actx s)
  /\ getStored nullPred 0 s 202 (0, 7) = Some m /\ pget m 2 = Some 50
  /\ pget (fields (applyChanged Bx (fst (activate Bx nullPred 0 s 202 (0, 7))))) 2 = Some 40.
Proof.
  exists (runS Bx nullPred 0 sx [OSet 200 201 [(2, 50)] (0, 7); OStage [(2, 40)]]), (200, 7), [(1, 11); (2, 50); (3, 3)].
  split; [vm_compute; reflexivity|]. split; [vm_compute; discriminate|]. split; [vm_compute; reflexivity|].
  split; [reflexivity|]. vm_compute. reflexivity.
Qed.
Print Assumptions C114_pending_refuted.

(* ------------------------------------------------------------------ C115 *)

(** C115: over every history of sets (each activated), tags, staging of other names, resets and applications, the member
    has, after applying, the value last given to it explicitly; no tag changes it. *)
Theorem C115_explicit_values_survive_tags : forall B fuel f a b c ps s0 k us v, sane B -> has k (writ B) = true ->
  noDup f -> typed B f -> 0 < a -> a < b -> b < c -> initBlock B nullPred fuel (blank f) a b c ps = Some s0 ->
  fair B k (USet a b c ps) -> Forall (fair B k) us -> strictClock c (ureadings us) ->
  (exists d, pget (dflt s0) k = Some d /\ valid B k d = true) ->
  lastGiven B (dflt s0) k (given B [] k None (USet a b c ps)) us = Some v ->
  pget (fields (runS B nullPred fuel s0 (uprog (us ++ [UApply])))) k = Some v.
Proof.
  intros B fuel f a b c ps s0 k us v Hs Hk Hnf Htf Ha Hb Hc Hi Hf0 Hf Hcl Hd Hg.
  destruct (J_init B fuel f a b c ps k s0 Hs Hk Hnf Htf Ha Hb Hc Hf0 Hi) as (J0 & D1 & D2).
  pose proof (J_run B (dflt s0) k fuel Hs Hk D1 D2 Hd us _ c s0 J0 Hcl Hf) as J1. rewrite Hg in J1.
  unfold uprog in *. rewrite flat_map_app, runS_app. cbn [flat_map uops app]. unfold runS at 1. cbn [fold_left stepS].
  destruct (J_apply B (dflt s0) k (Some v) _ _ Hk J1) as [(t & m & au & _ & _ & _ & _ & _ & _ & _ & Jg) He].
  rewrite He in Jg. destruct Jg as [Jg|[_ Jg]]; [discriminate|exact Jg].
Qed.
Print Assumptions C115_explicit_values_survive_tags.

Definition usx : list uop :=
  [UTag 110 111 [(1, 70); (2, 71); (3, 72)] None; UApply; USet 120 121 122 [(2, 25); (1, 15)]; UTag 130 131 [(2, 80); (3, 81)] (Some 9);
   UStage [(3, 60)]; UApply; UTag 140 141 [(2, 90)] None; UReset 150 151 152; UTag 160 161 [(1, 5); (2, 6)] None; USet 170 171 172 [(3, 7)]].

Example C115_explicit_values_survive_tags_case :
  initBlock Bx nullPred 0 (blank fx) 100 101 102 [(1, 11)] = Some sx /\ fair Bx 1 (USet 100 101 102 [(1, 11)])
  /\ Forall (fair Bx 1) usx /\ strictClock 102 (ureadings usx)
  /\ lastGiven Bx (dflt sx) 1 (given Bx [] 1 None (USet 100 101 102 [(1, 11)])) usx = Some 11
  /\ lastGiven Bx (dflt sx) 1 (given Bx [] 1 None (USet 100 101 102 [(1, 11)])) (firstn 7 usx) = Some 15
  /\ pget (fields (runS Bx nullPred 0 sx (uprog (firstn 7 usx ++ [UApply])))) 1 = Some 15.
Proof.
  split; [vm_compute; reflexivity|]. split; [apply fair_set; reflexivity|]. split.
  { unfold usx. fairs. }
  split; [cbn; lia|]. vm_compute. auto.
Qed.

(** A set that is not followed by an activation removes the protection of the active entry: the next tag overwrites a
    member that was given explicitly both before and by that very set. *)
Theorem C115_unactivated_set_refuted : exists s1 s2,
  set Bx nullPred 0 sx 200 201 [(1, 12)] (0, 0) = (s1, Some [])
  /\ autoUpdate Bx nullPred 0 s1 202 203 (mkT [(1, 77)] None None) = Some s2
  /\ pget (fields sx) 1 = Some 11 /\ pget (fields (applyChanged Bx s2)) 1 = Some 77.
Proof. eexists _, _. split; [vm_compute; reflexivity|]. split; [vm_compute; reflexivity|]. vm_compute. auto. Qed.
Print Assumptions C115_unactivated_set_refuted.

(* ------------------------------------------------------------------ C116 *)

(** C116: over the same histories, a member that was never given explicitly takes the value of a tag, and reads back that
    value. *)
Theorem C116_tags_set_other_members : forall B fuel f a b c ps s0 k us v x y vals tr, sane B -> has k (writ B) = true ->
  noDup f -> typed B f -> 0 < a -> a < b -> b < c -> initBlock B nullPred fuel (blank f) a b c ps = Some s0 ->
  fair B k (USet a b c ps) -> Forall (fair B k) us -> strictClock c (ureadings us) ->
  (exists d, pget (dflt s0) k = Some d /\ valid B k d = true) ->
  lastGiven B (dflt s0) k (given B [] k None (USet a b c ps)) us = None ->
  noDup vals -> pget vals k = Some v -> holds B k v = true -> valid B k v = true ->
  pget (fields (runS B nullPred fuel s0 (uprog (us ++ [UApply; UTag x y vals tr; UApply])))) k = Some v.
Proof.
  intros B fuel f a b c ps s0 k us v x y vals tr Hs Hk Hnf Htf Ha Hb Hc Hi Hf0 Hf Hcl Hd Hg Hnv Hv Hh Hvv.
  destruct (J_init B fuel f a b c ps k s0 Hs Hk Hnf Htf Ha Hb Hc Hf0 Hi) as (J0 & D1 & D2).
  pose proof (J_run B (dflt s0) k fuel Hs Hk D1 D2 Hd us _ c s0 J0 Hcl Hf) as J1. rewrite Hg in J1.
  pose proof (mirror_run B nullPred fuel (uprog us) s0 (mirror_init B nullPred fuel f a b c ps s0 Hnf Hi)) as M1.
  unfold uprog in *. rewrite flat_map_app, runS_app. set (s1 := runS B nullPred fuel s0 (flat_map uops us)) in *.
  cbn [flat_map uops app]. unfold runS. cbn [fold_left stepS].
  destruct (J_apply B (dflt s0) k None _ s1 Hk J1) as [J2 He].
  pose proof (mirror_step B nullPred fuel s1 OApply M1) as M2. cbn [stepS] in M2. set (s2 := applyChanged B s1) in *.
  destruct J2 as (t & m & au & (Q1 & Q2 & Q3 & Q4 & Q5) & (Q6 & Q7) & (Q8 & Q9) & _ & Q10).
  unfold autoUpdate. assert (Hrel : relevant B (mkT vals None tr) = true).
  { unfold relevant. cbn [tVals]. apply orb_true_iff. left. apply orb_true_iff. left. apply existsb_exists. exists (k, v).
    split; [apply pget_in, Hv|exact Hk]. }
  rewrite Hrel. cbn [negb tagContext tCtx tVals]. rewrite Q4, Q6, Q6. cbv zeta. rewrite ctxEqb_refl. cbn [negb].
  pose proof (tagLoop_get B false (active s2) au vals (staged s2) false Hnv) as TG. cbv zeta in TG.
  destruct (tagLoop B vals false (active s2) au (staged s2) false) as [stg was]. cbn [fst snd] in TG. destruct TG as (T1 & T2 & T3).
  specialize (T2 k). rewrite Hv, Hk, Q10, Hh, He in T2. cbn [negb andb pget] in T2.
  destruct (pget (active s2) k) as [w|] eqn:Ew.
  - destruct (N.eqb_spec w v) as [->|Hne]; cbn [negb andb] in T2.
    + (* the tag repeats the active value *)
      pose proof (proj2 M2 k v Ew) as Hfld.
      assert (G : forall s3, staged s3 = stg -> fields s3 = fields s2 -> noDup stg -> pget (fields (applyChanged B s3)) k = Some v).
      { intros s3 E1 E2 E3. unfold applyChanged. destruct (chg s3); [|congruence]. unfold applyStaged. rewrite E1.
        pose proof (applyLoop_get B stg (fields s3) [] [] k E3) as HG. destruct (applyLoop B stg (fields s3) [] []) as [[f3 ap] fw].
        cbn [fst fields] in HG |- *. rewrite HG, T2. congruence. }
      destruct was, (isEmpty stg); cbn [negb andb orb]; apply G; try reflexivity; apply T1, Q8.
    + assert (Ew' : was = true) by (destruct was; [reflexivity|]; destruct (T3 eq_refl) as [_ Es]; rewrite Es, He in T2; discriminate). subst was.
      cbn [negb andb orb]. unfold applyChanged. cbn [chg setChg]. unfold applyStaged. cbn [staged fields setChg setStagedMap].
      pose proof (applyLoop_get B stg (fields s2) [] [] k (T1 Q8)) as HG. destruct (applyLoop B stg (fields s2) [] []) as [[f3 ap] fw].
      cbn [fst fields] in HG |- *. rewrite HG, T2, Hk. unfold okVal. rewrite Hh, Hvv. reflexivity.
  - cbn [negb andb] in T2.
    assert (Ew' : was = true) by (destruct was; [reflexivity|]; destruct (T3 eq_refl) as [_ Es]; rewrite Es, He in T2; discriminate). subst was.
    cbn [negb andb orb]. unfold applyChanged. cbn [chg setChg]. unfold applyStaged. cbn [staged fields setChg setStagedMap].
    pose proof (applyLoop_get B stg (fields s2) [] [] k (T1 Q8)) as HG. destruct (applyLoop B stg (fields s2) [] []) as [[f3 ap] fw].
    cbn [fst fields] in HG |- *. rewrite HG, T2, Hk. unfold okVal. rewrite Hh, Hvv. reflexivity.
Qed.
Print Assumptions C116_tags_set_other_members.

Example C116_tags_set_other_members_case :
  let us := [UTag 110 111 [(1, 70); (2, 71)] None; UApply; USet 120 121 122 [(3, 25)]; UReset 130 131 132; UTag 140 141 [(2, 60)] None] in
  Forall (fair Bx 2) us /\ strictClock 102 (ureadings us)
  /\ lastGiven Bx (dflt sx) 2 (given Bx [] 2 None (USet 100 101 102 [(1, 11)])) us = None
  /\ fields (runS Bx nullPred 0 sx (uprog (us ++ [UApply; UTag 150 151 [(1, 8); (2, 9); (3, 10)] None; UApply]))) = [(1, 11); (2, 9); (3, 3)].
Proof.
  cbv zeta. split.
  { fairs. }
  split; [cbn; lia|]. vm_compute. auto.
Qed.

(** Two tags before one application: the later one is skipped if it repeats the value active before both. *)
Theorem C116_pending_refuted : exists us v,
  pget (fields (runS Bx nullPred 0 sx (uprog (us ++ [UTag 140 141 [(2, v)] None; UApply])))) 2 <> Some v
  /\ lastGiven Bx (dflt sx) 2 (given Bx [] 2 None (USet 100 101 102 [(1, 11)])) us = None.
Proof.
  exists [UTag 110 111 [(2, 5)] None; UApply; UTag 120 121 [(2, 6)] None], 5. split; [vm_compute; discriminate|reflexivity].
Qed.
Print Assumptions C116_pending_refuted.

(* ------------------------------------------------------------------ C117 *)

(** C117: over the same histories, resetDefaults gives every explicitly given member its default at once, with nothing
    left pending. *)
Theorem C117_reset_restores_given_members : forall B fuel f a b c ps s0 k us x y z, sane B -> has k (writ B) = true ->
  noDup f -> typed B f -> 0 < a -> a < b -> b < c -> initBlock B nullPred fuel (blank f) a b c ps = Some s0 ->
  fair B k (USet a b c ps) -> Forall (fair B k) us -> strictClock c (ureadings (us ++ [UReset x y z])) ->
  (exists d, pget (dflt s0) k = Some d /\ valid B k d = true) ->
  lastGiven B (dflt s0) k (given B [] k None (USet a b c ps)) us <> None ->
  pget (fields (runS B nullPred fuel s0 (uprog (us ++ [UReset x y z])))) k = pget (dflt s0) k
  /\ staged (runS B nullPred fuel s0 (uprog (us ++ [UReset x y z]))) = [].
Proof.
  intros B fuel f a b c ps s0 k us x y z Hs Hk Hnf Htf Ha Hb Hc Hi Hf0 Hf Hcl Hd Hg.
  destruct (J_init B fuel f a b c ps k s0 Hs Hk Hnf Htf Ha Hb Hc Hf0 Hi) as (J0 & D1 & D2).
  unfold ureadings in Hcl. rewrite flat_map_app in Hcl. fold (ureadings us) in Hcl. apply strict_app in Hcl. destruct Hcl as [Hcl Hcl2].
  cbn [flat_map uops readings app strictClock] in Hcl2.
  pose proof (J_run B (dflt s0) k fuel Hs Hk D1 D2 Hd us _ c s0 J0 Hcl Hf) as J1.
  unfold uprog in *. rewrite flat_map_app, runS_app. set (s1 := runS B nullPred fuel s0 (flat_map uops us)) in *.
  cbn [flat_map uops app]. unfold runS. cbn [fold_left stepS].
  destruct (lastGiven B (dflt s0) k (given B [] k None (USet a b c ps)) us) as [v|]; [|contradiction].
  destruct Hd as (d & Hd1 & Hd2).
  destruct (J_reset B (dflt s0) k (Some v) _ s1 fuel x y z Hs Hk J1 ltac:(lia) ltac:(lia) ltac:(lia) D1 D2 ltac:(intros w E; congruence) ltac:(congruence)) as [J2 He].
  split; [|exact He]. destruct J2 as (t & m & au & _ & _ & _ & _ & Jg). cbn [given] in Jg. rewrite Hd1 in Jg |- *.
  destruct Jg as (_ & _ & _ & Jg). rewrite He in Jg. destruct Jg as [Jg|[_ Jg]]; [discriminate|exact Jg].
Qed.
Print Assumptions C117_reset_restores_given_members.

Example C117_reset_restores_given_members_case :
  let us := [USet 120 121 122 [(3, 25); (1, 30)]; UTag 130 131 [(3, 60)] None; UApply] in
  Forall (fair Bx 3) us /\ strictClock 102 (ureadings (us ++ [UReset 200 201 202]))
  /\ lastGiven Bx (dflt sx) 3 (given Bx [] 3 None (USet 100 101 102 [(1, 11)])) us = Some 25
  /\ fields (runS Bx nullPred 0 sx (uprog us)) = [(1, 30); (2, 2); (3, 25)]
  /\ fields (runS Bx nullPred 0 sx (uprog (us ++ [UReset 200 201 202]))) = [(1, 11); (2, 2); (3, 3)].
Proof.
  cbv zeta. split.
  { fairs. }
  split; [cbn; lia|]. vm_compute. auto.
Qed.

(** A member that got its value from a tag keeps it: resetDefaults does not restore its default. *)
Theorem C117_tag_value_refuted : exists us,
  pget (fields (runS Bx nullPred 0 sx (uprog (us ++ [UReset 200 201 202])))) 2 <> pget (dflt sx) 2.
Proof. exists [UTag 110 111 [(2, 5)] None; UApply]. vm_compute. discriminate. Qed.
Print Assumptions C117_tag_value_refuted.

(* ------------------------------------------------------------------ C118 *)

(** C118: applying changes exactly the members with a staged value that is of the member's type and accepted, reports
    exactly those, forwards every applied one whose name is forwarded, leaves nothing staged, and what get returns for a
    member is its value. *)
Theorem C118_apply_effect : forall B s, noDup (staged s) -> mirror s ->
  let '(s', ap, fw) := applyStaged B s in
  staged s' = []
  /\ (forall k, pget ap k = match pget (staged s) k with
                           | Some v => if has k (writ B) && (holds B k v && valid B k v) then Some v else None | None => None end)
  /\ (forall k, pget (fields s') k = match pget ap k with Some v => Some v | None => pget (fields s) k end)
  /\ (forall k v, pget ap k = Some v -> fwdTag B k = true -> pget fw k = Some v)
  /\ (forall k v, pget (fields s') k = Some v <-> get s' k = Some v).
Proof.
  intros B s Hn Hm. destruct (mirror_apply B s Hm) as [M1 M2]. unfold applyStaged in *.
  pose proof (applyLoop_get B (staged s) (fields s) [] []) as HG. pose proof (applyLoop_out B (staged s) (fields s) [] []) as HO.
  destruct (applyLoop B (staged s) (fields s) [] []) as [[f ap] fw]. cbn [fst snd staged fields active] in *. unfold get. cbn [active].
  split; [reflexivity|]. split; [|split; [|split]].
  - intros k. destruct (HO k Hn) as [H1 _]. rewrite H1. reflexivity.
  - intros k. destruct (HO k Hn) as [H1 _]. rewrite (HG k Hn), H1. destruct (pget (staged s) k) as [v|]; [|reflexivity].
    destruct (has k (writ B) && okVal B k v); reflexivity.
  - intros k v. destruct (HO k Hn) as [H1 H2]. rewrite H1, H2. destruct (pget (staged s) k) as [w|]; [|discriminate].
    destruct (has k (writ B)); cbn [andb]; [|discriminate]. destruct (okVal B k w); [|discriminate]. intros E ->. exact E.
  - intros k v. split; [apply M2|]. intros E. apply (proj2 M1 k v E).
Qed.
Print Assumptions C118_apply_effect.

(** The states in question are all states reachable by histories of operations from an initialised block. *)
Theorem C118_get_mirrors_fields : forall B pred fuel f a b c ps s0 os k v, noDup f ->
  initBlock B pred fuel (blank f) a b c ps = Some s0 ->
  get (runS B pred fuel s0 os) k = Some v -> pget (fields (runS B pred fuel s0 os)) k = Some v.
Proof. intros B pred fuel f a b c ps s0 os k v Hn Hi. apply (mirror_run B pred fuel os s0 (mirror_init B pred fuel f a b c ps s0 Hn Hi)). Qed.
Print Assumptions C118_get_mirrors_fields.

Example C118_apply_effect_case :
  let s := fst (setStaged Bx sx [(1, 20); (2, 30); (3, 500); (9, 9)]) in
  noDup (staged s) /\ mirror s /\ (let '(s', ap, fw) := applyStaged Bx s in
    fields s' = [(1, 20); (2, 30); (3, 3)] /\ ap = [(1, 20); (2, 30)] /\ fw = [(2, 30)] /\ get s' 2 = Some 30).
Proof.
  cbv zeta. split; [unfold noDup; vm_compute; repeat constructor; cbn; intuition discriminate|]. split; [|vm_compute; auto].
  apply (mirror_step Bx nullPred 0 sx (OStage [(1, 20); (2, 30); (3, 500); (9, 9)])).
  apply (mirror_init Bx nullPred 0 fx 100 101 102 [(1, 11)]); [exact noDup_fx|vm_compute; reflexivity].
Qed.

(** A value that is not accepted is not applied, but it is still forwarded downstream. *)
Theorem C118_rejected_forwarded_refuted : exists ps k v,
  let '(s', ap, fw) := applyStaged Bx (fst (setStaged Bx sx ps)) in
  pget fw k = Some v /\ pget ap k = None /\ pget (fields s') k <> Some v.
Proof. exists [(2, 150)], 2, 150. vm_compute. split; [reflexivity|]. split; [reflexivity|discriminate]. Qed.
Print Assumptions C118_rejected_forwarded_refuted.

(* ------------------------------------------------------------------ C119 *)

(** C119: if one thread stages values and the other applies them, in any interleaving in which no staging falls between
    taking over the staged values and clearing them, the value last staged for a member is the member's value after one
    more complete round of checking and applying. *)
Theorem C119_staged_values_applied : forall B k s xs s' v, sane B -> has k (writ B) = true ->
  staged s = [] -> outside B (s, 0) xs -> Forall (fairStage B k) xs -> arun B (s, 0) xs = Some (s', 0) ->
  lastStaged B k xs = Some v ->
  exists s'', (if chg s' then arun B (s', 0) [ACheck; AApply; AClear; AUnset; AUnset2] else arun B (s', 0) [ACheck]) = Some (s'', 0)
    /\ pget (fields s'') k = Some v /\ staged s'' = [] /\ chg s'' = false.
Proof.
  intros B k s xs s' v Hs Hk He Ho Hf Hr Hl.
  assert (K0 : K B k None (s, 0)).
  { unfold K. cbn [fst snd]. rewrite He. split; [constructor|]. split; [lia|]. split; [congruence|]. split; [lia|exact I]. }
  pose proof (K_run B k Hs Hk xs None (s, 0) (s', 0) K0 Ho Hf Hr) as K1. fold (lastStaged B k xs) in K1. rewrite Hl in K1.
  destruct K1 as (Q1 & Q2 & Q3 & Q4 & Q5 & Q6 & Q7 & Q8 & Q9). cbn [fst snd] in *.
  destruct (chg s') eqn:Ec.
  - cbn [arun arun1 N.eqb]. rewrite Ec. cbn [arun arun1]. pose proof (applyLoop_get B (staged s') (fields s') [] [] k Q1) as HG.
    change (1 =? 1) with true. cbv iota.
    destruct (applyLoop B (staged s') (fields s') [] []) as [[f ap] fw]. cbn [fst] in HG. eexists. split; [reflexivity|].
    cbn [fields staged chg setChg setStagedMap]. split; [|split; reflexivity]. rewrite HG. destruct Q7 as [Q7|Q7]; rewrite Q7; [|apply Q9, Q7].
    rewrite Hk. unfold okVal. rewrite Q5, Q6. reflexivity.
  - assert (Es : staged s' = []) by (destruct (staged s'); [reflexivity|specialize (Q3 ltac:(lia) ltac:(discriminate)); congruence]).
    cbn [arun arun1 N.eqb]. rewrite Ec. exists s'. split; [reflexivity|]. split; [|split; [exact Es|exact Ec]]. apply Q9. rewrite Es. reflexivity.
Qed.
Print Assumptions C119_staged_values_applied.

Example C119_staged_values_applied_case :
  let xs := [AStage [(1, 20)]; ACheck; AStage [(1, 30); (2, 5)]; AApply; AClear; AUnset; AUnset2; AStage [(1, 40)]; ACheck; AApply; AClear; AUnset; AUnset2;
             AStage [(2, 6)]] in
  outside Bx (sx, 0) xs /\ Forall (fairStage Bx 1) xs /\ lastStaged Bx 1 xs = Some 40
  /\ option_map (fun a => (fields (fst a), chg (fst a), snd a)) (arun Bx (sx, 0) xs) = Some ([(1, 40); (2, 5); (3, 3)], true, 0).
Proof.
  cbv zeta. split; [vm_compute; repeat split; discriminate|]. split; [|split; vm_compute; reflexivity].
  fairs.
Qed.

(** Values staged right after the staged ones were taken over are wiped out. *)
Theorem C119_lost_refuted : exists xs s', arun Bx (sx, 0) xs = Some (s', 0)
  /\ lastStaged Bx 1 xs = Some 30 /\ pget (fields s') 1 = Some 20 /\ staged s' = [] /\ chg s' = false.
Proof.
  exists [AStage [(1, 20)]; ACheck; AApply; AStage [(1, 30)]; AClear; AUnset; AUnset2]. eexists.
  split; [vm_compute; reflexivity|]. vm_compute. auto.
Qed.
Print Assumptions C119_lost_refuted.

(** Values staged a little later stay staged, but the changed flag is cleared: no later round applies them. *)
Theorem C119_stuck_refuted : exists xs s', arun Bx (sx, 0) xs = Some (s', 0)
  /\ lastStaged Bx 1 xs = Some 30 /\ staged s' = [(1, 30)]
  /\ forall n, arun Bx (s', 0) (repeat ACheck n) = Some (s', 0) /\ pget (fields s') 1 = Some 20.
Proof.
  exists [AStage [(1, 20)]; ACheck; AApply; AClear; AStage [(1, 30)]; AUnset; AUnset2]. eexists.
  split; [vm_compute; reflexivity|]. split; [reflexivity|]. split; [reflexivity|].
  intros n. split; [|reflexivity]. induction n as [|n IH]; [reflexivity|]. exact IH.
Qed.
Print Assumptions C119_stuck_refuted.

(* ------------------------------------------------------------------ C120 *)

(** The entries of a context (empty if unknown). *)
Definition entriesOf (s : st) (n : N) : list entry := match sget (stored s) n with Some v => v | None => [] end.

(** C120: removeContext refuses the default context and contexts without an entry for exactly the given time, changing
    nothing; otherwise it removes that entry and no other, of any context. *)
Theorem C120_remove_context : forall B pred fuel s now1 now2 t n,
  (forall n', StronglySorted (fun a b : entry => fst a < fst b) (entriesOf s n')) -> t <> 0 ->
  let '(s', r) := removeContext B pred fuel s now1 now2 (t, n) in
  (r = true <-> n <> 0 /\ In t (map fst (entriesOf s n)))
  /\ (r = false -> s' = s)
  /\ (r = true -> forall n' e, In e (entriesOf s' n') <-> In e (entriesOf s n') /\ (n' = n -> fst e <> t))
  /\ (r = true -> fields s' = fields s /\ (snd (actx s) <> n -> staged s' = staged s /\ actx s' = actx s)).
Proof.
  intros B pred fuel s now1 now2 t n Hs Ht. unfold removeContext. cbn [snd]. destruct (N.eqb_spec n 0) as [->|Hn].
  { split; [split; [discriminate|intros [H _]; congruence]|]. split; [reflexivity|]. split; discriminate. }
  unfold entriesOf in *. destruct (sget (stored s) n) as [v|] eqn:Ev.
  2:{ split; [split; [discriminate|intros [_ []]]|]. split; [reflexivity|]. split; discriminate. }
  unfold timed. cbn [fst snd]. destruct (N.eqb_spec t 0); [contradiction|]. cbn [fst snd].
  pose proof (Hs n) as Hv. rewrite Ev in Hv. pose proof (eraseTime_spec v t Hv) as He. destruct (eraseTime v t) as [v'|].
  2:{ split; [split; [discriminate|intros [_ H]; contradiction]|]. split; [reflexivity|]. split; discriminate. }
  destruct He as [He1 He2].
  set (s1 := setStored s (if isEmpty v' then sdel (stored s) n else sput (stored s) n v')).
  assert (G : forall n' e, In e (match sget (stored s1) n' with Some x => x | None => [] end) <->
     In e (match sget (stored s) n' with Some x => x | None => [] end) /\ (n' = n -> fst e <> t)).
  { intros n' e. cbn [s1 stored setStored]. destruct v' as [|x v'']; cbn [isEmpty].
    - rewrite sget_sdel. destruct (N.eqb_spec n n') as [ <- | Hne ].
      + rewrite Ev. split; [intros []|]. intros [H1 H2]. apply He2. auto.
      + split; [intros H; split; [exact H|congruence]|intros [H _]; exact H].
    - rewrite sget_sput. destruct (N.eqb_spec n n') as [ <- | Hne ].
      + rewrite Ev, He2. split; intros [H1 H2]; split; auto.
      + split; [intros H; split; [exact H|congruence]|intros [H _]; exact H]. }
  split; [split; [intros _; split; [exact Hn|exact He1]|reflexivity]|]. split; [discriminate|].
  destruct (activate_frame B pred fuel s1 now2 (0, 0)) as (F1 & _ & _ & _ & F5).
  split.
  - intros _ n' e. destruct (snd (actx s1) =? n); [rewrite F1|]; apply G.
  - intros _. split; [destruct (snd (actx s1) =? n); [exact F5|reflexivity]|]. intros Ha. change (actx s1) with (actx s).
    destruct (N.eqb_spec (snd (actx s)) n); [contradiction|]. split; reflexivity.
Qed.
Print Assumptions C120_remove_context.

Example C120_remove_context_case :
  let s := fst (set Bx nullPred 0 (fst (set Bx nullPred 0 sx 200 201 [(2, 50)] (0, 7))) 210 211 [(2, 60)] (900, 7)) in
  let '(s', r) := removeContext Bx nullPred 0 s 300 301 (200, 7) in
  r = true /\ map fst (entriesOf s 7) = [200; 900] /\ map fst (entriesOf s' 7) = [900] /\ entriesOf s' 0 = entriesOf s 0.
Proof. vm_compute. auto. Qed.

(** Without a time the context is not removed: the time becomes the present one, which no entry has. *)
Theorem C120_no_time_refuted : exists s now n, n <> 0 /\ entriesOf s n <> []
  /\ (forall e, In e (entriesOf s n) -> fst e < now) /\ removeContext Bx nullPred 0 s now (now + 1) (0, n) = (s, false).
Proof.
  exists (fst (set Bx nullPred 0 sx 200 201 [(2, 50)] (0, 7))), 300, 7. split; [discriminate|]. split; [vm_compute; discriminate|].
  split; [|vm_compute; reflexivity]. intros e He. vm_compute in He. destruct He as [ <- | [] ]. vm_compute. reflexivity.
Qed.
Print Assumptions C120_no_time_refuted.

(** A context removed and created again at the same time still counts the names given to the removed one as explicit: tags
    do not update them. *)
Theorem C120_stale_protection_refuted : exists s1 s2 s3 au,
  fst (removeContext Bx nullPred 0 s1 300 301 (200, 7)) = s2 /\ snd (removeContext Bx nullPred 0 s1 300 301 (200, 7)) = true
  /\ entriesOf s2 7 = [] /\ s3 = fst (set Bx nullPred 0 s2 400 401 [(3, 60)] (200, 7))
  /\ aget (autoU s3) (200, 7) = Some au /\ has 1 (writ Bx) = true /\ has 1 au = false
  /\ aget (autoU (fst (set Bx nullPred 0 (runS Bx nullPred 0 (blank fx) []) 400 401 [(3, 60)] (200, 7)))) (200, 7) = Some [1; 2].
Proof.
  exists (fst (set Bx nullPred 0 sx 200 201 [(1, 50)] (0, 7))). eexists _, _, _.
  split; [vm_compute; reflexivity|]. split; [vm_compute; reflexivity|]. split; [vm_compute; reflexivity|]. split; [vm_compute; reflexivity|].
  split; [vm_compute; reflexivity|]. split; [reflexivity|]. split; vm_compute; reflexivity.
Qed.
Print Assumptions C120_stale_protection_refuted.

(* ------------------------------------------------------------------ C121 *)

(** C121: with an expiry time (and no overflow), the purge keeps of every context exactly the entries that have not
    expired and are not superseded by a later unexpired one that is already valid. *)
Theorem C121_purge_with_expiry : forall s now n,
  StronglySorted (fun a b : entry => fst a < fst b) (entriesOf s n) -> expiry s <> never ->
  (forall e, In e (entriesOf s n) -> fst e + expiry s < 2 ^ 64) ->
  forall e, In e (entriesOf (removeExpired s now) n) <->
    In e (entriesOf s n) /\ now < fst e + expiry s
    /\ forall e', In e' (entriesOf s n) -> now < fst e' + expiry s -> ~ (fst e < fst e' <= now).
Proof.
  intros s now n Hs He Hw e.
  assert (X : forall x, In x (entriesOf s n) -> (negb (expired (expiry s) now x) = true <-> now < fst x + expiry s)).
  { intros x Hx. unfold expired. rewrite N.mod_small by (apply Hw, Hx). lia. }
  unfold entriesOf in *. pose proof (vec_expiry s now n Hs He e) as H. unfold vecOf in H. rewrite H. unfold keep. rewrite filter_In. split.
  - intros [[H1 H2] H3]. split; [exact H1|]. split; [apply X; assumption|]. intros e' He' Hx. apply H3, filter_In. split; [exact He'|apply X; assumption].
  - intros (H1 & H2 & H3). split; [split; [exact H1|apply X; assumption]|]. intros e' He'. apply filter_In in He'. destruct He' as [He' Hx].
    apply H3; [exact He'|apply X; assumption].
Qed.
Print Assumptions C121_purge_with_expiry.

(** The settings of [sx] with an expiry time. *)
Definition withExpiry (s : st) (e : N) : st := mkS (stored s) (autoU s) (dflt s) (staged s) (active s) (fields s) (actx s) (chg s) e.

Example C121_purge_with_expiry_case :
  let s := withExpiry (fst (set Bx nullPred 0 (fst (set Bx nullPred 0 sx 200 201 [(2, 50)] (0, 7))) 210 211 [(2, 60)] (900, 7))) 100 in
  expiry s <> never /\ map fst (entriesOf s 0) = [100] /\ entriesOf (removeExpired s 250) 0 = []
  /\ map fst (entriesOf (removeExpired s 250) 7) = [200; 900] /\ map fst (entriesOf (removeExpired s 950) 7) = [900].
Proof. vm_compute. split; [discriminate|auto]. Qed.

(** Once the active entry has expired, a set value is never applied, although set and activateContext report success: the
    purge deletes the new entry's set of names left to tags, activation then takes all names as left to tags. *)
Theorem C121_set_ignored_refuted : exists s1 s2 b,
  set Bx nullPred 0 (withExpiry sx 50) 200 201 [(1, 77)] (0, 0) = (s1, Some [])
  /\ activate Bx nullPred 0 s1 202 (0, 0) = (s2, Some (Some b)) /\ actx s2 = (200, 0)
  /\ pget (fields (applyChanged Bx s2)) 1 = Some 11.
Proof. eexists _, _, _. split; [vm_compute; reflexivity|]. split; [vm_compute; reflexivity|]. vm_compute. auto. Qed.
Print Assumptions C121_set_ignored_refuted.

(** A very long expiry time overflows and expires everything at once. *)
Theorem C121_overflow_refuted : exists e, e <> never /\ 2 ^ 63 < e
  /\ entriesOf (removeExpired (withExpiry sx e) 101) 0 = [] /\ entriesOf sx 0 <> [].
Proof. exists (2 ^ 64 - 50). split; [discriminate|]. split; [reflexivity|]. split; [vm_compute; reflexivity|vm_compute; discriminate]. Qed.
Print Assumptions C121_overflow_refuted.

(* ------------------------------------------------------------------ C122 *)

(** C122: activateContext returns the context that is active afterwards, or nothing and then nothing has changed and
    nothing is stored for the request; which is the case for every unknown name under the block's own matching. *)
Theorem C122_activation_result : forall B pred fuel s now c,
  (forall s' b, activate B pred fuel s now c = (s', Some (Some b)) -> actx s' = b)
  /\ (forall s', activate B pred fuel s now c = (s', Some None) -> s' = s /\ getStored pred fuel s now c = None)
  /\ (sget (stored s) (snd c) = None -> activate B nullPred fuel s now c = (s, Some None)).
Proof.
  intros B pred fuel s now c. split; [intros s' b; apply activate_active|]. split; [intros s'; apply activate_none|].
  intros H. unfold activate, findBest. cbn [timed snd]. rewrite findName_null, H. reflexivity.
Qed.
Print Assumptions C122_activation_result.

(** C122: with a matching rule, a name that is not stored is answered by the stored name accepted in the first attempt
    that accepts one, the first such name in order; every earlier question was answered with no. *)
Theorem C122_matching_order : forall pred fuel s n t b,
  sget (stored s) n = None -> findBest pred fuel s (t, n) = Some b ->
  exists a p r, map fst (stored s) = p ++ snd b :: r /\ pred (snd b) n a = Some true
    /\ (forall x, In x p -> pred x n a = Some false)
    /\ forall i x, i < a -> In x (map fst (stored s)) -> pred x n i = Some false.
Proof.
  intros pred fuel s n t b Hn. unfold findBest, findName. cbn [snd fst]. rewrite Hn.
  destruct (stored s) as [|q l] eqn:El; [discriminate|]. rewrite <- El. destruct (attempts pred fuel (map fst (stored s)) n 0) as [n'|] eqn:Ea; [|discriminate].
  destruct (sget (stored s) n') as [v|]; [|discriminate]. destruct (findTime v t) as [t'|]; [|discriminate]. intros E. injection E as <-. cbn [snd].
  destruct (attempts_spec pred n (map fst (stored s)) fuel 0 n' Ea) as (a & p & r & H1 & H2 & H3 & H4 & H5).
  exists a, p, r. split; [exact H2|]. split; [exact H3|]. split; [exact H4|]. intros i x Hi. apply H5. lia.
Qed.
Print Assumptions C122_matching_order.

(** Names are numbers; a name is matched by a stored name that equals its tenth part, or, in the second attempt, by 0. *)
Definition predx (n search a : N) : option bool :=
  if a =? 0 then Some (n =? search / 10) else if a =? 1 then Some (n =? 0) else None.

Example C122_matching_order_case :
  let s := fst (set Bx predx 5 sx 200 201 [(2, 50)] (0, 7)) in
  findBest predx 5 s (300, 75) = Some (200, 7) /\ findBest predx 5 s (300, 42) = Some (100, 0) /\ sget (stored s) 75 = None
  /\ snd (activate Bx predx 5 s 300 (0, 75)) = Some (Some (200, 7)) /\ snd (activate Bx nullPred 5 s 300 (0, 75)) = Some None.
Proof. vm_compute. auto. Qed.

(** A matching rule that only ever answers no keeps the search going for ever: no attempt ends it. *)
Theorem C122_endless_refuted : exists (pred : N -> N -> N -> option bool) s n,
  stored s <> [] /\ sget (stored s) n = None /\ forall a, tryNames pred (map fst (stored s)) n a = None.
Proof.
  exists (fun _ _ _ => Some false), sx, 7. split; [vm_compute; discriminate|]. split; [vm_compute; reflexivity|]. intros a. vm_compute. reflexivity.
Qed.
Print Assumptions C122_endless_refuted.
