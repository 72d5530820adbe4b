(** Connecting and priming at start and resume: the theorems C98 and C99. *)
From Coq Require Import Ascii String ZArith NArith Bool Arith Permutation Sorted Lia List.
From Verif Require Import Base TopoModel TopoSpec TopoProofs TopoSearch TopoLoopProofs TopoWccProofs TopoMoreProofs TopoProps.
From Verif Require Import PrimeModel PrimeSpec PrimeProofs.
Import ListNotations.
Local Open Scope nat_scope.

(** ** C98 *)

(** After a start, with all edges connectable and every input fed by one edge: no input is primed twice; whatever is primed
    is the closing edge of a loop that passes no block twice, with the size computed for that loop; and, unless the size
    of some loop cannot be computed, every cycle of the graph, and of each transparent group in it, has a primed edge. *)
Theorem C98_primed_at_start ok info adjOf g :
  (forall es, sameMap (computeAdjacencyList es) (adjOf es)) ->
  wellFormed g -> NoDup (map inputOf (allEdges g)) -> (forall e, In e (allEdges g) -> ok e = true) ->
  let s := fst (schedulerStart ok info adjOf g) in
  NoDup (map inputOf (map fst (primed s))) /\
  (forall e n, In (e, n) (primed s) ->
     (exists es, managed g es /\ In e es) /\
     exists h c front, partOf g h /\ c = front ++ [e] /\ cycle (edges (flatten TransparentBlockGroup h)) c /\ simple c /\
       calculateLoopPrimingSize info c = Some n) /\
  ((forall h c, partOf g h -> cycle (edges (flatten TransparentBlockGroup h)) c -> simple c -> calculateLoopPrimingSize info c <> None) ->
   forall h c, partOf g h -> cycle (edges h) c -> exists e n, In e c /\ In (e, n) (primed s)).
Proof.
  intros Hadj Hwf Hu Hok s. destruct (stage_all ok info adjOf g Hadj Hwf Hu Hok) as [_ _ _ I4 I5 I6 I7].
  fold s in I4, I5, I6, I7. split; [exact I5|]. split.
  - intros e n H. split.
    + specialize (I4 e n H). unfold liveAfter in I4. apply in_app_iff in I4 as [I4|I4].
      * exists (edges g). split; [left; reflexivity|exact I4].
      * apply in_flat_map in I4 as (b & Hb & I4). apply filter_In in Hb as [Hb Hc]. exists (binner b). split; [|exact I4].
        right. exists b. split; [apply (proj1 (forEachBlock_holds TransparentBlockGroup g b)); exact Hb|].
        split; [|reflexivity]. unfold isT in Hc. destruct (bcat b); try discriminate. reflexivity.
    + destruct (I6 e n H) as (h & c & front & H1 & H2 & H3 & H4 & H5). exists h, c, front. auto 10.
  - intros Hcalm h c Hh Hc. apply I7.
    + intros l Hs (h' & Hh' & Hl). apply (Hcalm h' l Hh' Hl Hs).
    + destruct Hh as [->|(b & Hb & Hcat & ->)]; [left; exact Hc|right]. exists b.
      split; [apply (proj2 (forEachBlock_holds TransparentBlockGroup g b)); exact Hb|]. split; [exact Hcat|exact Hc].
Qed.
Print Assumptions C98_primed_at_start.

(** A loop 0 - 1 in the graph, a second reader 2 of block 1, and a loop 4 - 5 in the transparent group 3. *)
Definition looped : Graph :=
  mkGraph [leaf 0; leaf 1; leaf 2; Blk 3 TransparentBlockGroup [leaf 4; leaf 5] [arc 4 5; arc 5 4]] [arc 0 1; arc 1 0; arc 1 2].

(** All blocks want at least 5 samples. *)
Definition five (_ : nat) : BlockInfo := mkInfo 1 1 0 [5%Z] [SinglePort "in"%string].

Lemma looped_ok :
  wellFormed looped /\ NoDup (map inputOf (allEdges looped)) /\ (forall e, In e (allEdges looped) -> (fun _ : Edge => true) e = true).
Proof.
  split; [|split; [|reflexivity]].
  - split.
    + intros e He. cbn in He. destruct He as [<-|[<-|[<-|[]]]]; [exists (leaf 0)|exists (leaf 1)|exists (leaf 1)]; cbn; auto 10.
    + intros b e Hb He. apply (proj2 (forEachBlock_holds TransparentBlockGroup looped b)) in Hb. cbn in Hb.
      destruct Hb as [<-|[<-|[<-|[<-|[<-|[<-|[]]]]]]]; cbn in He; try contradiction.
      destruct He as [<-|[<-|[]]]; (split; [left; reflexivity|]); [exists (leaf 4)|exists (leaf 5)]; cbn; auto.
  - cbn. repeat (constructor; [cbn; intuition discriminate|]). constructor.
Qed.

Example C98_case :
  let s := fst (schedulerStart (fun _ => true) five computeAdjacencyList looped) in
  primed s = [(arc 1 0, 5%Z); (arc 5 4, 5%Z)].
Proof. reflexivity. Qed.

(** Priming is not once per start only: every pause and resume puts the samples in again, the loop in the group twice, as it
    is seen from the graph and from the group. *)
Theorem C98_resume_refuted :
  exists g info, wellFormed g /\ NoDup (map inputOf (allEdges g)) /\
    let s0 := fst (schedulerStart (fun _ => true) info computeAdjacencyList g) in
    let s1 := schedulerResume (fun _ => true) info computeAdjacencyList g s0 in
    map inputOf (map fst (primed s0)) = [(0, Idx 0 None); (4, Idx 0 None)] /\
    map inputOf (map fst (primed s1)) = [(0, Idx 0 None); (4, Idx 0 None); (0, Idx 0 None); (4, Idx 0 None); (4, Idx 0 None)] /\
    live s1 = live s0.
Proof.
  exists looped, five. split; [apply looped_ok|]. split; [apply looped_ok|]. split; [reflexivity|]. split; reflexivity.
Qed.
Print Assumptions C98_resume_refuted.

(** A start without anything wrong is not silent: the loop in the group is first tried before the group's edges are
    connected, which reports an error. *)
Theorem C98_silent_refuted :
  exists g info, wellFormed g /\ NoDup (map inputOf (allEdges g)) /\
    let '(s, result) := schedulerStart (fun _ => true) info computeAdjacencyList g in
    result = true /\ length (primed s) = 2 /\ complaints s = 1.
Proof.
  exists looped, five. split; [apply looped_ok|]. split; [apply looped_ok|]. split; [reflexivity|]. split; reflexivity.
Qed.
Print Assumptions C98_silent_refuted.

(** Priming stays not within the loop: block 2 merely listens to the output at the end of the loop, is on no loop, and finds
    the five samples in its input too. *)
Theorem C98_bystander_refuted :
  exists g info x, wellFormed g /\ NoDup (map inputOf (allEdges g)) /\ In x (edges g) /\
    (forall y, In y (allEdges g) -> src y <> dst x) /\
    receives (fst (schedulerStart (fun _ => true) info computeAdjacencyList g)) x = 5%Z.
Proof.
  exists looped, five, (arc 1 2). split; [apply looped_ok|]. split; [apply looped_ok|]. split; [cbn; auto|]. split.
  - intros y Hy. cbn in Hy. intuition (subst; discriminate).
  - reflexivity.
Qed.
Print Assumptions C98_bystander_refuted.

(** ** C99 *)

(** When every edge can be connected, a start connects exactly the edges of the graph and of the transparent groups in it, and
    reports success. *)
Theorem C99_all_connected ok info adjOf g :
  (forall es, sameMap (computeAdjacencyList es) (adjOf es)) ->
  wellFormed g -> NoDup (map inputOf (allEdges g)) -> (forall e, In e (allEdges g) -> ok e = true) ->
  let '(s, result) := schedulerStart ok info adjOf g in
  result = true /\ forall e, In e (live s) <-> exists es, managed g es /\ In e es.
Proof.
  intros Hadj Hwf Hu Hok. pose proof (stage_all ok info adjOf g Hadj Hwf Hu Hok) as [I1 _ I3 _ _ _ _].
  destruct (schedulerStart ok info adjOf g) as [s result]. cbn [fst snd] in I1, I3. split; [exact I1|].
  intros e. rewrite I3. unfold liveAfter. rewrite in_app_iff, in_flat_map. split.
  - intros [H|(b & Hb & H)]; [exists (edges g); split; [left; reflexivity|exact H]|].
    apply filter_In in Hb as [Hb Hc]. exists (binner b). split; [|exact H]. right. exists b.
    split; [apply (proj1 (forEachBlock_holds TransparentBlockGroup g b)); exact Hb|].
    split; [|reflexivity]. unfold isT in Hc. destruct (bcat b); try discriminate. reflexivity.
  - intros (es & [->|(b & Hb & Hc & ->)] & H); [left; exact H|right]. exists b. split; [|exact H].
    apply filter_In. split; [apply (proj2 (forEachBlock_holds TransparentBlockGroup g b)); exact Hb|]. unfold isT. rewrite Hc. reflexivity.
Qed.
Print Assumptions C99_all_connected.

Example C99_case :
  let '(s, result) := schedulerStart (fun _ => true) five computeAdjacencyList looped in
  result = true /\ live s = [arc 0 1; arc 1 0; arc 1 2; arc 4 5; arc 5 4].
Proof. split; reflexivity. Qed.

(** One edge that cannot be connected keeps others apart that can: nothing inside a group is connected any more. *)
Theorem C99_independent_refuted :
  exists g ok info e, wellFormed g /\ NoDup (map inputOf (allEdges g)) /\
    In e (allEdges g) /\ ok e = true /\ (forall x, In x (allEdges g) -> ok x = false -> dst x <> dst e /\ src x <> src e) /\
    ~ In e (live (fst (schedulerStart ok info computeAdjacencyList g))).
Proof.
  exists looped, (fun e => negb (Nat.eqb (dst e) 2)), five, (arc 4 5).
  split; [apply looped_ok|]. split; [apply looped_ok|]. split; [cbn; auto 10|]. split; [reflexivity|]. split.
  - intros x Hx. cbn in Hx. intuition (subst; cbn in *; discriminate).
  - vm_compute. intuition discriminate.
Qed.
Print Assumptions C99_independent_refuted.
