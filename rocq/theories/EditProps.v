(** Editing a graph: the theorems C100 to C106. *)
From Coq Require Import Ascii ZArith NArith Bool Arith Permutation Lia String List.
From Verif Require Import Base TopoModel EditModel EditSpec EditProofs EditGroupProofs EditWireProofs EditUngroupProofs EditMoreProofs.
Import ListNotations.
Local Open Scope nat_scope.
Local Open Scope string_scope.
Local Open Scope list_scope.

(** ** C100: a port definition selects the port it names *)

Theorem C100_definition_finds_port ps d p : plainPorts ps -> Means ps d p -> resolve ps d = Some p.
Proof.
  intros (Hn & Hf & Hl) H. rewrite Forall_forall in Hf.
  assert (Hname : forall q, In q ps -> hashFree (dportName q)) by (intros q Hq; apply Hf, in_map; exact Hq).
  destruct H as [t n p H|t s n l p H1 H2|n p H|n s l p H1 H2]; cbn [resolve].
  - unfold portByIndex. rewrite H. reflexivity.
  - unfold portByIndex. rewrite H1, bounded_nth. exact H2.
  - rewrite portFromName_plain; [apply findOne_in; assumption|exact (Hname _ H)].
  - rewrite portFromName_elem; [|exact (Hname _ H1)|].
    + rewrite (findMany_in _ _ _ Hn H1). exact H2.
    + specialize (Hl _ _ H1). apply nth_error_Some_lt in H2. lia.
Qed.
Print Assumptions C100_definition_finds_port.

(** And only that one: an index, or a name without ['#'], never selects anything else. *)
Theorem C100_nothing_else ps d p : resolve ps d = Some p -> (forall n, d = Named n -> hashFree n) -> Means ps d p.
Proof.
  intros H Hd. destruct d as [t sub|n]; cbn [resolve] in H.
  - unfold portByIndex in H. destruct (nth_error ps (N.to_nat t)) as [[m q|m l]|] eqn:E; [| |discriminate].
    + destruct sub; [discriminate|]. injection H as <-. econstructor. exact E.
    + destruct sub as [s|]; [|discriminate]. rewrite bounded_nth in H. econstructor; eassumption.
  - rewrite portFromName_plain in H by exact (Hd n eq_refl). constructor. apply findOne_some. exact H.
Qed.
Print Assumptions C100_nothing_else.

(** Writing an index out as a name, as grouping does, selects the same port, or none if there was none. *)
Theorem C100_spelling ps d n : plainPorts ps -> definedPortName ps d = Some n -> resolve ps (Named n) = resolve ps d.
Proof. intros H1 H2. exact (defined_same ps d n H1 H2). Qed.
Print Assumptions C100_spelling.

Definition threePorts : list DPort := [One "a" 10; Many "in" [11; 12; 13]; One "b" 14].

Lemma threePorts_plain : plainPorts threePorts.
Proof.
  split; [|split].
  - repeat constructor; cbn; intuition discriminate.
  - repeat constructor; unfold hashFree; cbn; intuition discriminate.
  - cbn. intros n l [H|[H|[H|[]]]]; try discriminate. injection H as <- <-. reflexivity.
Qed.

Example C100_case : plainPorts threePorts /\ Means threePorts (Named "in#2") 13 /\ resolve threePorts (Named "in#2") = Some 13 /\
  definedPortName threePorts (Idx 1 (Some 2%N)) = Some "in#2" /\ resolve threePorts (Idx 1 (Some 2%N)) = Some 13 /\
  resolve threePorts (Named "b") = Some 14 /\ resolve threePorts (Named "in") = None /\ resolve threePorts (Idx 2 (Some 0%N)) = None.
Proof.
  split; [exact threePorts_plain|]. split; [|repeat split; vm_compute; reflexivity].
  change "in#2" with ("in" ++ "#" ++ showN 2)%string. apply means_element with (l := [11; 12; 13]); [cbn; auto|reflexivity].
Qed.

(** A name with something after the number still selects a port, though no port is called so. *)
Theorem C100_exact_refuted : exists ps n p, plainPorts ps /\ resolve ps (Named n) = Some p /\ ~ Means ps (Named n) p.
Proof.
  exists threePorts, "in#1x", 12. split; [exact threePorts_plain|]. split; [reflexivity|]. intros H. inversion H as [| |? ? Hi|? s l ? Hi Hn E].
  - cbn in Hi. intuition discriminate.
  - cbn in Hi. destruct Hi as [Hi|[Hi|[Hi|[]]]]; try discriminate. injection Hi as <- <-. cbn in E. injection E as E.
    assert (Hs : forall u, digitRun (DecimalString.NilEmpty.string_of_uint u) = DecimalString.NilEmpty.string_of_uint u) by apply digits_all.
    unfold showN in E. specialize (Hs (N.to_uint s)). rewrite E in Hs. discriminate.
Qed.
Print Assumptions C100_exact_refuted.

(** ** C101: grouping keeps every wire *)

(** After a successful grouping the chosen blocks are inside the new block, in the order given, all others are where they
    were, and counted over all levels exactly the same pairs of ports are joined with the same parameters. *)
Theorem C101_group_keeps_wires arith known sid nm targets g i g' :
  wellBuilt (gblocks g) (gedges g) -> NoDup (map gid targets) -> incl targets (gblocks g) -> ~ In sid (map gid (gblocks g)) ->
  plainTargets targets -> boundedSize targets g -> innerNamesPlain targets g ->
  groupBlocks arith known sid nm targets g = (Some i, g') ->
  Permutation (allWires g') (allWires g) /\
  exists sub, gid sub = sid /\ gsub sub = targets /\ i = sid /\
    gblocks g' = filter (fun b => negb (grouped targets (gid b))) (gblocks g) ++ [sub].
Proof.
  intros Hw Hn Hi Hs Hp Hb Hh H. split; [exact (group_wires _ _ _ _ _ _ _ _ Hw Hn Hi Hs Hp Hb Hh H)|].
  destruct (group_inv _ _ _ _ _ _ _ _ H Hn Hw) as (ops & cr & _ & -> & _ & _ & _ & _ & ->).
  exists (newGroup sid nm targets (gedges g) ops). repeat split.
Qed.
Print Assumptions C101_group_keeps_wires.

(** Blocks of the example: one input, one output, numbered. *)
Definition plainBlock (i : nat) : GBlock := GB i "blk" [One "in" (10 * i)] [One "out" (10 * i + 1)] false [] [] [] [].
Definition link (s : nat) (sp : PortDef) (d : nat) (dp : PortDef) : GEdge := mkGEdge s sp d dp (Some 1024%N) 7 "e" 0 Connected.

(** 1 feeds 2 and 3, 2 feeds 4, 3 feeds 4 too; some edges by index, some by name. *)
Definition chain : GGraph := mkGraph [plainBlock 1; plainBlock 2; plainBlock 3; plainBlock 4]
  [link 1 (Idx 0 None) 2 (Named "in"); link 1 (Idx 0 None) 3 (Idx 0 None); link 2 (Named "out") 4 (Named "in"); link 2 (Idx 0 None) 3 (Named "in")].

Lemma plainBlock_plain i : plainPorts (gins (plainBlock i)) /\ plainPorts (gouts (plainBlock i)).
Proof.
  split; split; try split; cbn; try (repeat constructor; unfold hashFree; cbn; intuition discriminate);
    intros n l [H|[]]; discriminate.
Qed.

Lemma chain_ok : wellBuilt (gblocks chain) (gedges chain).
Proof.
  split.
  - cbn. repeat constructor; cbn; intuition discriminate.
  - cbn. intros e [<-|[<-|[<-|[<-|[]]]]]; cbn; auto 10.
  - repeat constructor.
Qed.

Definition pair23 : list GBlock := [plainBlock 2; plainBlock 3].

Lemma chain_plain targets : (forall b, In b targets -> exists i, b = plainBlock i) -> innerNamesPlain targets chain.
Proof.
  intros Ht e b d p He (Hb & H). destruct (Ht b Hb) as [i ->]. split; [unfold hashFree; cbn; intuition discriminate|].
  assert (Hp : p = Named "in" \/ p = Named "out" \/ p = Idx 0 None).
  { cbn in He. destruct H as [(_ & _ & -> & _)|(_ & _ & -> & _)]; destruct He as [<-|[<-|[<-|[<-|[]]]]]; cbn; auto 10. }
  intros n Hn. destruct Hp as [ -> |[ -> | -> ]]; cbn in Hn; [injection Hn as <- ..|]; unfold hashFree; cbn; try solve [intuition discriminate].
  destruct d; cbn in Hn; injection Hn as <-; cbn; intuition discriminate.
Qed.

Lemma pair23_ok : NoDup (map gid pair23) /\ incl pair23 (gblocks chain) /\ plainTargets pair23 /\ boundedSize pair23 chain /\
  innerNamesPlain pair23 chain /\ ~ In 9 (map gid (gblocks chain)).
Proof.
  split; [cbn; repeat constructor; cbn; intuition discriminate|]. split; [intros b [<-|[<-|[]]]; cbn; auto|]. split; [|split; [|split]].
  - intros b [<-|[<-|[]]]; apply plainBlock_plain.
  - intros e [<-|[<-|[<-|[<-|[]]]]] _; discriminate.
  - apply chain_plain. intros b [<-|[<-|[]]]; eexists; reflexivity.
  - cbn. intuition discriminate.
Qed.

(** Two blocks of the same name with equally named ports: the second export gets a suffix. *)
Example C101_case :
  let '(r, g') := groupBlocks (fun _ => true) true 9 "group" pair23 chain in
  r = Some 9 /\ map gid (gblocks g') = [1; 4; 9] /\
  match findB 9 (gblocks g') with
  | Some s => gins s = [One "blk.in" 20; One "blk.in_1" 30] /\ gouts s = [One "blk.out" 21] /\ List.length (gsubEdges s) = 1
  | None => False
  end /\
  allWires g' = [(Some 11, Some 20, Some 1024%N, 7%Z, "e"); (Some 11, Some 30, Some 1024%N, 7%Z, "e");
                 (Some 21, Some 40, Some 1024%N, 7%Z, "e"); (Some 21, Some 30, Some 1024%N, 7%Z, "e")].
Proof. vm_compute. repeat split. Qed.

(** One member of a port collection at the border: its exported name contains a ['#'] and can never be found, the edge is lost. *)
Definition collector : GBlock := GB 2 "add" [Many "in" [20; 22]] [One "out" 21] false [] [] [] [].
Definition collected : GGraph := mkGraph [plainBlock 1; collector] [link 1 (Named "out") 2 (Idx 0 (Some 1%N))].

Theorem C101_collection_refuted :
  exists g targets sid g', wellBuilt (gblocks g) (gedges g) /\ NoDup (map gid targets) /\ incl targets (gblocks g) /\
    ~ In sid (map gid (gblocks g)) /\ plainTargets targets /\ boundedSize targets g /\ innerPortsExist targets g /\
    (forall b, In b targets -> hashFree (gname b)) /\
    groupBlocks (fun _ => true) true sid "group" targets g = (Some sid, g') /\
    In (Some 11, Some 22, Some 1024%N, 7%Z, "e") (allWires g) /\ In (Some 11, None, Some 1024%N, 7%Z, "e") (allWires g') /\
    ~ Permutation (allWires g') (allWires g).
Proof.
  exists collected, [collector], 9. eexists. split; [|split; [|split; [|split; [|split; [|split; [|split; [|split]]]]]]].
  - split; [cbn; repeat constructor; cbn; intuition discriminate|cbn; intros e [<-|[]]; cbn; auto 10|repeat constructor].
  - repeat constructor. cbn. tauto.
  - intros b [<-|[]]. cbn. auto.
  - cbn. intuition discriminate.
  - intros b [<-|[]]. split; split; try split; cbn; try (repeat constructor; unfold hashFree; cbn; intuition discriminate);
      intros n l [H|[]]; try discriminate; injection H as <- <-; reflexivity.
  - intros e [<-|[]] _. discriminate.
  - intros e b d p [<-|[]] ([<-|[]] & [(_ & H & _)|(-> & _ & -> & _)]); [discriminate|]. vm_compute. discriminate.
  - intros b [<-|[]]. unfold hashFree. cbn. intuition discriminate.
  - split; [vm_compute; reflexivity|]. split; [vm_compute; auto|]. split; [vm_compute; auto|].
    intros P. vm_compute in P. apply Permutation_length_1 in P. discriminate.
Qed.
Print Assumptions C101_collection_refuted.

(** The memory resources, compute domain and UI constraints of an edge across the border are forgotten. *)
Theorem C101_resources_refuted :
  exists g targets sid g' e, In e (gedges g) /\ crosses targets e /\ gextra e <> 0 /\
    innerPortsExist targets g /\ groupBlocks (fun _ => true) true sid "group" targets g = (Some sid, g') /\
    forall b e', (In e' (gedges g') \/ (In b (gblocks g') /\ In e' (gsubEdges b))) -> gextra e' = 0.
Proof.
  exists (mkGraph [plainBlock 1; plainBlock 2] [mkGEdge 1 (Named "out") 2 (Named "in") (Some 64%N) 0 "e" 5 Connected]), [plainBlock 2], 9.
  eexists. eexists. split; [left; reflexivity|]. split; [vm_compute; discriminate|]. split; [discriminate|]. split.
  - intros e b d p [<-|[]] ([<-|[]] & [(_ & H & _)|(-> & _ & -> & _)]); [discriminate|]. vm_compute. discriminate.
  - split; [vm_compute; reflexivity|]. intros b e'. vm_compute. intros [[<-|[]]|[[<-|[<-|[]]] H]]; [reflexivity|destruct H..].
Qed.
Print Assumptions C101_resources_refuted.

(** ** C102: a grouping that fails changes nothing *)

(** When the inner ports of the crossing edges exist, grouping fails only for an empty choice or an unknown type name, and
    then the graph is as before. *)
Theorem C102_failed_group_unchanged arith known sid nm targets g :
  wellBuilt (gblocks g) (gedges g) -> NoDup (map gid targets) -> incl targets (gblocks g) -> plainTargets targets -> innerPortsExist targets g ->
  (targets <> [] -> known = true -> fst (groupBlocks arith known sid nm targets g) = Some sid) /\
  (fst (groupBlocks arith known sid nm targets g) = None -> snd (groupBlocks arith known sid nm targets g) = g).
Proof.
  intros Hw Hn Hi Hp He. unfold groupBlocks. destruct targets as [|t0 tr] eqn:Et; [split; [congruence|reflexivity]|].
  rewrite <- Et in *. clear Et t0 tr.
  destruct (plan targets [] (gedges g)) as [[[ops internal] crossing]|] eqn:E.
  2:{ exfalso. exact (plan_total targets (gedges g) He [] E). }
  destruct known; [|split; [congruence|reflexivity]]. cbn [negb].
  assert (H0 : opsOk targets []) by (split; try constructor; intros o []).
  destruct (plan_spec targets (gedges g) Hn _ _ _ _ E H0) as (P1 & _ & P3 & P4 & P5 & _).
  match goal with |- context [exportAll ?s ops] => set (sub := s) end.
  destruct (exportAll_succeeds ops sub (ok_keys _ _ P1)) as [sub' ->].
  - intros o Ho. split; [destruct (pdir o); reflexivity|]. destruct (P5 o Ho) as [[]|(e & p & H1 & H2 & H3)].
    exists (pblk o). pose proof (He e _ _ _ H1 H2) as H4.
    rewrite <- (defined_same _ _ _ (plain_side targets _ (pdir o) Hp (ok_in _ _ P1 o Ho)) H3) in H4.
    destruct (portFromName (portsOf (pdir o) (pblk o)) (pint o)) as [q|]; [|congruence]. exists q. split; [|reflexivity].
    exact (findB_in targets (pblk o) Hn (ok_in _ _ P1 o Ho)).
  - cbn. split; [reflexivity|discriminate].
Qed.
Print Assumptions C102_failed_group_unchanged.

(** The two errors found while planning, an unknown port index and an unknown type name, always leave the graph alone. *)
Theorem C102_planning_unchanged arith known sid nm targets g :
  known = false \/ plan targets [] (gedges g) = None -> groupBlocks arith known sid nm targets g = (None, g).
Proof.
  intros H. unfold groupBlocks. destruct targets as [|t r]; [reflexivity|].
  destruct (plan (t :: r) [] (gedges g)) as [[[ops i] c]|]; [|reflexivity]. destruct H as [ -> |H]; [reflexivity|discriminate].
Qed.
Print Assumptions C102_planning_unchanged.

Lemma chain_exists : innerPortsExist pair23 chain.
Proof.
  intros e b d p He ([<-|[<-|[]]] & H); cbn in He; destruct He as [<-|[<-|[<-|[<-|[]]]]];
    destruct H as [(-> & H & -> & H2)|(-> & H & -> & H2)]; vm_compute in H; vm_compute in H2; try discriminate; vm_compute; discriminate.
Qed.

Example C102_case : innerPortsExist pair23 chain /\ fst (groupBlocks (fun _ => true) true 9 "group" pair23 chain) = Some 9 /\
  groupBlocks (fun _ => true) false 9 "group" pair23 chain = (None, chain) /\
  groupBlocks (fun _ => true) true 9 "group" [plainBlock 2] (mkGraph (gblocks chain) [link 1 (Named "out") 2 (Idx 5 None)])
    = (None, mkGraph (gblocks chain) [link 1 (Named "out") 2 (Idx 5 None)]).
Proof. split; [exact chain_exists|]. vm_compute. repeat split. Qed.

(** An edge to a port name that does not exist ([connect] accepts it) makes grouping fail half way: the call reports an error, and
    the blocks and all their edges are gone, also those of other, sound edges. *)
Theorem C102_refuted :
  exists g targets sid g', wellBuilt (gblocks g) (gedges g) /\ NoDup (map gid targets) /\ incl targets (gblocks g) /\ plainTargets targets /\
    groupBlocks (fun _ => true) true sid "group" targets g = (None, g') /\
    gblocks g' <> gblocks g /\ gedges g' = [] /\ List.length (gedges g) = 2 /\ In (Some 11, Some 20, Some 1024%N, 7%Z, "e") (allWires g).
Proof.
  exists (mkGraph [plainBlock 1; plainBlock 2] [link 1 (Named "out") 2 (Named "in"); link 1 (Named "out") 2 (Named "typo")]), [plainBlock 2], 9.
  eexists. split; [|split; [|split; [|split]]].
  - split; [cbn; repeat constructor; cbn; intuition discriminate|cbn; intros e [<-|[<-|[]]]; cbn; auto 10|repeat constructor].
  - repeat constructor. cbn. tauto.
  - intros b [<-|[]]. cbn. auto.
  - intros b [<-|[]]. apply plainBlock_plain.
  - split; [vm_compute; reflexivity|]. split; [cbn; discriminate|]. split; [reflexivity|]. split; [reflexivity|]. vm_compute. left. reflexivity.
Qed.
Print Assumptions C102_refuted.

(** ** C103: ungrouping keeps every wire *)

Theorem C103_ungroup_keeps_wires sub g :
  soundGroup sub -> wellBuilt (gblocks g) (gedges g) -> wellBuilt (gsub sub) (gsubEdges sub) ->
  In sub (gblocks g) -> separate sub (gblocks g) ->
  (forall e, In e (gedges g) -> (gsrc e = gid sub -> resolve (gouts sub) (gsrcPort e) <> None) /\
                                (gdst e = gid sub -> resolve (gins sub) (gdstPort e) <> None)) ->
  exists g', ungroupBlocks sub g = Some g' /\ Permutation (sub :: gblocks g') (gblocks g ++ gsub sub) /\
    Permutation (allWires g') (allWires g).
Proof. exact (ungroup_wires sub g). Qed.
Print Assumptions C103_ungroup_keeps_wires.

(** A group with a wire inside, one to it by index, one from it by name, and one from it back to itself. *)
Definition inner23 : GBlock := GB 9 "group" [One "x" 20; One "y" 30] [One "z" 31] true [plainBlock 2; plainBlock 3]
  [link 2 (Named "out") 3 (Named "in")] [mkExport 2 "in" "x"; mkExport 3 "in" "y"] [mkExport 3 "out" "z"].
Definition around : GGraph := mkGraph [plainBlock 1; inner23; plainBlock 4]
  [link 1 (Named "out") 9 (Idx 0 None); link 9 (Named "z") 4 (Named "in"); link 9 (Idx 0 None) 9 (Named "y")].

Lemma inner23_sound : soundGroup inner23.
Proof.
  split; [reflexivity|]. split; (split; [|split]).
  - cbn. repeat constructor; cbn; intuition discriminate.
  - repeat constructor; try discriminate; unfold hashFree; cbn; intuition discriminate.
  - repeat constructor; cbn; eexists; eexists; (split; [reflexivity|]); split; reflexivity.
  - cbn. repeat constructor; cbn; intuition discriminate.
  - repeat constructor; try discriminate; unfold hashFree; cbn; intuition discriminate.
  - repeat constructor; cbn; eexists; eexists; (split; [reflexivity|]); split; reflexivity.
Qed.

Example C103_case : soundGroup inner23 /\ wellBuilt (gblocks around) (gedges around) /\ wellBuilt (gsub inner23) (gsubEdges inner23) /\
  In inner23 (gblocks around) /\ separate inner23 (gblocks around) /\
  match ungroupBlocks inner23 around with
  | Some g' => map gid (gblocks g') = [1; 4; 2; 3] /\
      allWires g' = [(Some 11, Some 20, Some 1024%N, 7%Z, "e"); (Some 31, Some 40, Some 1024%N, 7%Z, "e");
                     (Some 31, Some 30, Some 1024%N, 7%Z, "e"); (Some 21, Some 30, Some 1024%N, 7%Z, "e")]
  | None => False
  end.
Proof.
  split; [exact inner23_sound|]. split; [|split; [|split; [cbn; auto|split]]].
  - split; [cbn; repeat constructor; cbn; intuition discriminate|cbn; intros e [<-|[<-|[<-|[]]]]; cbn; auto 10|repeat constructor].
  - split; [cbn; repeat constructor; cbn; intuition discriminate|cbn; intros e [<-|[]]; cbn; auto 10|repeat constructor].
  - split. cbn. intros i [<-|[<-|[]]]; (split; [discriminate|]); intuition discriminate.
  - vm_compute. repeat split.
Qed.

(** Two ports exported under one name ([exportPort] allows it): an edge to the second, given by index, ends at the first. *)
Definition twins : GBlock := GB 9 "group" [One "x" 20; One "x" 30] [] true [plainBlock 2; plainBlock 3] []
  [mkExport 2 "in" "x"; mkExport 3 "in" "x"] [].

Theorem C103_same_name_refuted :
  exists sub0 sub1 sub g g', exportPort true sub0 2 DIn "in" "x" = (sub1, true) /\ exportPort true sub1 3 DIn "in" "x" = (sub, true) /\
    wellBuilt (gblocks g) (gedges g) /\ In sub (gblocks g) /\ separate sub (gblocks g) /\
    allWires g = [(Some 11, Some 30, Some 1024%N, 7%Z, "e")] /\
    ungroupBlocks sub g = Some g' /\ allWires g' = [(Some 11, Some 20, Some 1024%N, 7%Z, "e")].
Proof.
  exists (GB 9 "group" [] [] true [plainBlock 2; plainBlock 3] [] [] []). eexists. exists twins.
  exists (mkGraph [plainBlock 1; twins] [link 1 (Named "out") 9 (Idx 1 None)]). eexists.
  split; [vm_compute; reflexivity|]. split; [vm_compute; reflexivity|]. split; [|split; [cbn; auto|split; [|split; [vm_compute; reflexivity|split; [vm_compute; reflexivity|vm_compute; reflexivity]]]]].
  - split; [cbn; repeat constructor; cbn; intuition discriminate|cbn; intros e [<-|[]]; cbn; auto 10|repeat constructor].
  - split. cbn. intros i [<-|[<-|[]]]; (split; [discriminate|]); intuition discriminate.
Qed.
Print Assumptions C103_same_name_refuted.

(** ** C104: ungrouping undoes grouping *)

(** Also where grouping alone loses a wire (a member of a port collection at the border). *)
Theorem C104_ungroup_undoes_group arith known sid nm targets g i g' :
  wellBuilt (gblocks g) (gedges g) -> NoDup (map gid targets) -> incl targets (gblocks g) -> ~ In sid (map gid (gblocks g)) ->
  plainTargets targets -> boundedSize targets g ->
  groupBlocks arith known sid nm targets g = (Some i, g') ->
  exists sub g'', findB sid (gblocks g') = Some sub /\ ungroupBlocks sub g' = Some g'' /\
    Permutation (gblocks g'') (gblocks g) /\ Permutation (allWires g'') (allWires g).
Proof. exact (roundtrip arith known sid nm targets g i g'). Qed.
Print Assumptions C104_ungroup_undoes_group.

Example C104_case :
  let '(r, g') := groupBlocks (fun _ => true) true 9 "group" [collector] collected in
  r = Some 9 /\ match findB 9 (gblocks g') with
  | Some sub => match ungroupBlocks sub g' with
                | Some g'' => gblocks g'' = gblocks collected /\ allWires g'' = allWires collected /\
                    map gsrcPort (gedges g'') = [Named "out"] /\ map gdstPort (gedges g'') = [Named "in#1"]
                | None => False end
  | None => False end.
Proof. vm_compute. repeat split. Qed.

(** But not letter for letter: the edges that crossed are spelled by name afterwards, and are waiting to be connected again. *)
Theorem C104_identical_refuted :
  exists g targets sid g' sub g'', wellBuilt (gblocks g) (gedges g) /\ NoDup (map gid targets) /\ incl targets (gblocks g) /\
    groupBlocks (fun _ => true) true sid "group" targets g = (Some sid, g') /\ findB sid (gblocks g') = Some sub /\
    ungroupBlocks sub g' = Some g'' /\ ~ Permutation (map gdstPort (gedges g'')) (map gdstPort (gedges g)).
Proof.
  exists collected, [collector], 9. do 3 eexists. split; [|split; [|split; [|split; [vm_compute; reflexivity|split; [vm_compute; reflexivity|split; [vm_compute; reflexivity|]]]]]].
  - split; [cbn; repeat constructor; cbn; intuition discriminate|cbn; intros e [<-|[]]; cbn; auto 10|repeat constructor].
  - repeat constructor. cbn. tauto.
  - intros b [<-|[]]. cbn. auto.
  - intros P. vm_compute in P. apply Permutation_length_1 in P. discriminate.
Qed.
Print Assumptions C104_identical_refuted.

(** ** C105: removing and replacing a block *)

(** Removing takes out that block and the edges at it, nothing else, and the remaining edges join what they joined. *)
Theorem C105_remove_block i g : wellBuilt (gblocks g) (gedges g) ->
  match removeBlockByName i g with
  | (Some b, g') => gid b = i /\ Permutation (b :: gblocks g') (gblocks g) /\ wellBuilt (gblocks g') (gedges g') /\
      (forall e, In e (gedges g') <-> In e (gedges g) /\ gsrc e <> i /\ gdst e <> i) /\
      (forall e, In e (gedges g') -> wireOf (gblocks g') e = wireOf (gblocks g) e)
  | (None, g') => g' = g /\ ~ In i (map gid (gblocks g))
  end.
Proof. exact (remove_spec i g). Qed.
Print Assumptions C105_remove_block.

(** Replacing puts the new block in the place of the old one at every edge, by the same port definitions; all else stays. *)
Theorem C105_replace_block cap i new g : wellBuilt (gblocks g) (gedges g) -> In i (map gid (gblocks g)) -> ~ In (gid new) (map gid (gblocks g)) ->
  List.length (gblocks g) < cap ->
  exists old g', replaceBlock cap i (Some new) g = Done g' /\ gid old = i /\ Permutation (old :: gblocks g') (new :: gblocks g) /\
    Forall2 (fun e e' =>
      gsrc e' = (if Nat.eqb (gsrc e) i then gid new else gsrc e) /\ gdst e' = (if Nat.eqb (gdst e) i then gid new else gdst e) /\
      gsrcPort e' = gsrcPort e /\ gdstPort e' = gdstPort e /\ gmin e' = gmin e /\ gweight e' = gweight e /\ gename e' = gename e /\
      gextra e' = gextra e /\ gstate e' = gstate e /\
      outEnd (gblocks g') (gsrc e') (gsrcPort e') = (if Nat.eqb (gsrc e) i then resolve (gouts new) (gsrcPort e) else outEnd (gblocks g) (gsrc e) (gsrcPort e)) /\
      inEnd (gblocks g') (gdst e') (gdstPort e') = (if Nat.eqb (gdst e) i then resolve (gins new) (gdstPort e) else inEnd (gblocks g) (gdst e) (gdstPort e)))
      (gedges g) (gedges g').
Proof. exact (replace_spec cap i new g). Qed.
Print Assumptions C105_replace_block.

(** An unknown block or an unknown type changes nothing. *)
Theorem C105_replace_fails cap i new g : ~ In i (map gid (gblocks g)) \/ new = None -> replaceBlock cap i new g = Failed g.
Proof.
  unfold replaceBlock. intros H. destruct (findB i (gblocks g)) as [b|] eqn:E; [|reflexivity].
  destruct H as [H| -> ]; [|reflexivity]. apply findB_none in H. congruence.
Qed.
Print Assumptions C105_replace_fails.

Example C105_case :
  match removeBlockByName 2 chain with
  | (Some b, g') => gid b = 2 /\ map gid (gblocks g') = [1; 3; 4] /\ gedges g' = [link 1 (Idx 0 None) 3 (Idx 0 None)]
  | _ => False end /\
  match replaceBlock 100 2 (Some (plainBlock 7)) chain with
  | Done g' => map gid (gblocks g') = [1; 3; 4; 7] /\ map (fun e => (gsrc e, gdst e)) (gedges g') = [(1, 7); (1, 3); (7, 4); (7, 3)] /\
      map (wireOf (gblocks g')) (gedges g') = [(Some 11, Some 70, Some 1024%N, 7%Z, "e"); (Some 11, Some 30, Some 1024%N, 7%Z, "e");
        (Some 71, Some 40, Some 1024%N, 7%Z, "e"); (Some 71, Some 30, Some 1024%N, 7%Z, "e")]
  | _ => False end.
Proof. vm_compute. repeat split. Qed.

(** With as many blocks as the vector of blocks has room for (100 after construction) replacing is undefined: the position
    found before is used after the vector has moved. *)
Theorem C105_defined_refuted :
  exists i new g, wellBuilt (gblocks g) (gedges g) /\ In i (map gid (gblocks g)) /\ ~ In (gid new) (map gid (gblocks g)) /\
    replaceBlock 100 i (Some new) g = Undefined.
Proof.
  exists 1, (plainBlock 101), (mkGraph (map plainBlock (seq 1 100)) []). cbn [gblocks gedges].
  assert (E : map gid (map plainBlock (seq 1 100)) = seq 1 100) by (vm_compute; reflexivity). rewrite E. split; [|split; [|split]].
  - split; [rewrite E; apply seq_NoDup|intros e []|constructor].
  - apply in_seq. lia.
  - rewrite in_seq. cbn [gid plainBlock]. lia.
  - vm_compute. reflexivity.
Qed.
Print Assumptions C105_defined_refuted.

(** ** C106: exporting a port *)

(** Exporting under a new name adds that one name, denoting that port of the inner block, and keeps the group sound; a refusal
    changes nothing. *)
Theorem C106_export s i d int ext s' ok : soundGroup s -> exportPort true s i d int ext = (s', ok) ->
  if ok then ~ In ext (map xext (bookOf d s)) -> hashFree ext -> ext <> EmptyString ->
         soundGroup s' /\ gsub s' = gsub s /\ exists b p, findB i (gsub s) = Some b /\ portFromName (portsOf d b) int = Some p /\
           portsOf d s' = portsOf d s ++ [One ext p] /\ resolve (portsOf d s') (Named ext) = Some p
  else s' = s.
Proof.
  intros Hs H. destruct ok.
  - intros Hx Hh Hne. pose proof (export_sound _ _ _ _ _ _ Hs Hx Hh Hne H) as Hs'. split; [exact Hs'|].
    apply export_true in H as (b & p & H1 & H2 & H3 & ->).
    destruct (withSide_ports d s (portsOf d s ++ [One ext p]) (bookOf d s ++ [mkExport i int ext])) as (W1 & W2 & W3 & W4 & _).
    split; [exact W3|]. exists b, p. split; [exact H2|]. split; [exact H3|]. split; [exact W1|].
    apply soundGroup_sides in Hs' as [_ Hs']. specialize (Hs' d). cbn [resolve]. rewrite portFromName_plain by exact Hh.
    apply findOne_in; [apply (sound_plain _ _ _ _ Hs')|]. rewrite W1. apply in_or_app. right. left. reflexivity.
  - unfold exportPort in H. destruct (Bool.eqb _ true); [injection H as <-; reflexivity|].
    destruct (findB i (gsub s)) as [b|]; [|injection H as <-; reflexivity].
    destruct (portFromName (portsOf d b) int) as [p|]; [discriminate|injection H as <-; reflexivity].
Qed.
Print Assumptions C106_export.

(** Withdrawing an export restores the group as it was. *)
Theorem C106_withdraw s i d int ext ext2 s' : soundGroup s -> ~ In ext (map xext (bookOf d s)) ->
  exportPort true s i d int ext = (s', true) -> exportPort false s' i d int ext2 = (s, true).
Proof. exact (export_undo s i d int ext ext2 s'). Qed.
Print Assumptions C106_withdraw.

Example C106_case : soundGroup inner23 /\ ~ In "w" (map xext (bookOf DOut inner23)) /\
  (let '(s', ok) := exportPort true inner23 2 DOut "out" "w" in
   ok = true /\ gouts s' = [One "z" 31; One "w" 21] /\ exportPort false s' 2 DOut "out" "" = (inner23, true)) /\
  exportPort true inner23 3 DOut "out" "w" = (inner23, false) /\ exportPort true inner23 2 DOut "nowhere" "w" = (inner23, false).
Proof. split; [exact inner23_sound|]. split; [cbn; intuition discriminate|]. vm_compute. repeat split. Qed.

(** A name may be given twice; withdrawing one export then takes away the other's port. *)
Theorem C106_same_name_refuted :
  exists s0 s1 s2 s3, exportPort true s0 2 DIn "in" "x" = (s1, true) /\ exportPort true s1 3 DIn "in" "x" = (s2, true) /\
    exportPort false s2 3 DIn "in" "" = (s3, true) /\ gbookIn s3 = gbookIn s1 /\ gins s1 = [One "x" 20] /\ gins s3 = [One "x" 30].
Proof.
  exists (GB 9 "group" [] [] true [plainBlock 2; plainBlock 3] [] [] []). do 3 eexists.
  split; [vm_compute; reflexivity|]. split; [vm_compute; reflexivity|]. split; [vm_compute; reflexivity|].
  split; [vm_compute; reflexivity|]. split; vm_compute; reflexivity.
Qed.
Print Assumptions C106_same_name_refuted.
