(** Job lists, search order, components, feedback loops, priming size, flattening: the theorems C91-C97. *)
From Coq Require Import Ascii String ZArith NArith Bool Arith Permutation Sorted Lia List.
From Verif Require Import Base TopoModel TopoSpec TopoProofs TopoSearch TopoLoopProofs TopoWccProofs TopoMoreProofs TopoNameProofs.
Import ListNotations.
Local Open Scope nat_scope.

(** ** Graphs used as examples *)

(** An edge between the first ports of two blocks. *)
Definition arc (a b : nat) : Edge := mkEdge a (Idx 0 None) b (Idx 0 None) 1024 0 "e"%string.
(** An edge into the second port of a block. *)
Definition arc2 (a b : nat) : Edge := mkEdge a (Idx 0 None) b (Idx 1 None) 1024 0 "e"%string.
(** A block that is no group. *)
Definition leaf (i : nat) : Block := Blk i NormalBlock [] [].
(** All blocks have the same name. *)
Definition anonymous (_ : nat) : string := "b"%string.

(** 0 and 1 in front, a group 2 holding 3 and 4, an inner scheduler 5 holding 6 and 7. *)
Definition nested : Graph :=
  mkGraph [leaf 0; leaf 1; Blk 2 TransparentBlockGroup [leaf 3; leaf 4] [arc 3 4]; Blk 5 ScheduledBlockGroup [leaf 6; leaf 7] [arc 6 7]]
          [arc 0 1; arc 1 3].

Lemma sameMap_refl a : sameMap a a.
Proof.
  exists a. split; [|apply Permutation_refl].
  induction a as [|x a IH]; constructor; [split; [reflexivity|apply Permutation_refl]|exact IH].
Qed.

Lemma sameMap_adjOk es a : sameMap (computeAdjacencyList es) a -> adjOk es a.
Proof. intros H. apply (adjOk_same es _ _ H). apply adjOk_compute. Qed.

(** ** C91 *)

(** The default scheduler: the blocks of the graph and of its transparent groups are dealt out in turn.  There are as
    many lists as threads (never more than blocks), no list is empty, their lengths differ by at most one, and a block
    that occurs once in the graph occurs in exactly one place. *)
Theorem C91_simple_jobs p threads g :
  1 <= threads -> blocks g <> [] ->
  let jobs := simpleJobs p threads g in
  exists ids n,
    (forall i, In i ids <-> exists b, holds (fun c => c = TransparentBlockGroup) g b /\ bid b = i) /\
    n = match p with multiThreaded => Nat.min threads (length ids) | _ => 1 end /\
    roundRobin ids n jobs /\
    ~ In [] jobs /\
    (forall a b, In a jobs -> In b jobs -> length a <= S (length b)) /\
    (forall i, In i (concat jobs) <-> exists b, holds (fun c => c = TransparentBlockGroup) g b /\ bid b = i) /\
    (NoDup ids -> once jobs).
Proof.
  intros Ht Hb jobs. set (ids := map bid (blocks (flatten TransparentBlockGroup g))).
  assert (Hids : forall i, In i ids <-> exists b, holds (fun c => c = TransparentBlockGroup) g b /\ bid b = i).
  { intros i. unfold ids. rewrite in_map_iff. cbn [blocks flatten]. split.
    - intros (b & E & H). exists b. split; [|exact E]. apply (proj1 (forEachBlock_holds TransparentBlockGroup g b)). exact H.
    - intros (b & H & E). exists b. split; [exact E|]. apply (proj2 (forEachBlock_holds TransparentBlockGroup g b)). exact H. }
  assert (Hl : 1 <= length ids).
  { unfold ids. rewrite map_length. cbn. unfold forEachBlock. rewrite app_length. destruct (blocks g); [congruence|cbn; lia]. }
  pose proof (nBatches_pos p threads (length ids) Ht Hl) as Hn.
  pose proof (batch_roundRobin ids _ Hn) as HR. fold (simpleJobs p threads g) in HR.
  assert (E : batchBlocks ids (nBatches p threads (length ids)) = jobs) by reflexivity. rewrite E in HR.
  exists ids, (nBatches p threads (length ids)).
  split; [exact Hids|]. split; [destruct p; reflexivity|]. split; [exact HR|].
  split. { apply (roundRobin_nonempty ids _ jobs Hn HR). unfold nBatches. destruct p; lia. }
  split. { exact (roundRobin_sizes ids _ jobs Hn HR). }
  split. { intros i. rewrite (roundRobin_In ids _ jobs i Hn HR). apply Hids. }
  intros HN b k l j j' m m'. apply (roundRobin_unique ids _ jobs Hn HR HN).
Qed.
Print Assumptions C91_simple_jobs.

Example C91_case : simpleJobs multiThreaded 3 nested = [[0; 5]; [1; 3]; [2; 4]] /\ simpleJobs singleThreaded 3 nested = [[0; 1; 2; 5; 3; 4]].
Proof. split; reflexivity. Qed.

(** ** C92 *)

(** The searching schedulers: whatever the order of the hash maps, the lists hold exactly the blocks that can be reached
    from a source, each in one place. *)
Theorem C92_searched_jobs name p threads g a :
  1 <= threads -> sameMap (computeAdjacencyList (edges (flatten TransparentBlockGroup g))) a ->
  let es := edges (flatten TransparentBlockGroup g) in
  (forall b, In b (concat (breadthFirstJobs name p threads a)) <-> reached es b) /\ once (breadthFirstJobs name p threads a) /\
  (forall b, In b (concat (depthFirstJobs name p threads a)) <-> reached es b) /\ once (depthFirstJobs name p threads a).
Proof.
  intros Ht Ha es. apply sameMap_adjOk in Ha. fold es in Ha.
  destruct (bfsBlocks_good es a name Ha) as [_ B1 B2 _ _]. destruct (dfsBlocks_good es a name Ha) as [D1 D2 _].
  unfold breadthFirstJobs, depthFirstJobs. cbv zeta.
  split; [intros b; rewrite (jobs_In p threads _ b Ht); apply B2|]. split; [apply jobs_once; assumption|].
  split; [intros b; rewrite (jobs_In p threads _ b Ht); apply D2|apply jobs_once; assumption].
Qed.
Print Assumptions C92_searched_jobs.

Example C92_case :
  breadthFirstJobs anonymous singleThreaded 1 (computeAdjacencyList (edges (flatten TransparentBlockGroup nested))) = [[0; 6; 1; 7; 3; 4]] /\
  depthFirstJobs anonymous singleThreaded 1 (computeAdjacencyList (edges (flatten TransparentBlockGroup nested))) = [[0; 1; 3; 4; 6; 7]].
Proof. split; reflexivity. Qed.

(** Not every block of the graph gets a turn: 0 and 1 feed each other, 2 is on its own, no list ever holds any of them. *)
Theorem C92_all_blocks_refuted :
  exists g, blocks g <> [] /\
    forall name p threads a, 1 <= threads -> sameMap (computeAdjacencyList (edges (flatten TransparentBlockGroup g))) a ->
      concat (breadthFirstJobs name p threads a) = [] /\ concat (depthFirstJobs name p threads a) = [].
Proof.
  exists (mkGraph [leaf 0; leaf 1; leaf 2] [arc 0 1; arc 1 0]). split; [discriminate|]. intros name p threads a Ht Ha.
  destruct (C92_searched_jobs name p threads _ a Ht Ha) as (B & _ & D & _).
  assert (N : forall b, ~ reached (edges (flatten TransparentBlockGroup (mkGraph [leaf 0; leaf 1; leaf 2] [arc 0 1; arc 1 0]))) b).
  { intros b (n & s & m & ((c & e & He & Es & _) & Hs) & _). cbn in He.
    destruct He as [<-|[<-|[]]]; cbn in Es; subst s.
    - apply (Hs 1). exists (arc 1 0). cbn. auto.
    - apply (Hs 0). exists (arc 0 1). cbn. auto. }
  split.
  - destruct (concat (breadthFirstJobs name p threads a)) as [|b l] eqn:E; [reflexivity|]. exfalso. apply (N b). apply B. left. reflexivity.
  - destruct (concat (depthFirstJobs name p threads a)) as [|b l] eqn:E; [reflexivity|]. exfalso. apply (N b). apply D. left. reflexivity.
Qed.
Print Assumptions C92_all_blocks_refuted.

(** Not only blocks of this scheduler: 6 and 7 belong to the inner scheduler 5, which runs them itself, and yet they are
    on the outer lists; 5 itself is not. *)
Theorem C92_own_blocks_refuted :
  exists g, forall name p threads a, 1 <= threads -> sameMap (computeAdjacencyList (edges (flatten TransparentBlockGroup g))) a ->
    (exists b, In b (concat (breadthFirstJobs name p threads a)) /\ In b (concat (depthFirstJobs name p threads a)) /\
       forall x, holds (fun c => c = TransparentBlockGroup) g x -> bid x <> b) /\
    (exists x, In x (blocks g) /\ ~ In (bid x) (concat (breadthFirstJobs name p threads a)) /\ ~ In (bid x) (concat (depthFirstJobs name p threads a))).
Proof.
  exists nested. intros name p threads a Ht Ha.
  destruct (C92_searched_jobs name p threads _ a Ht Ha) as (B & _ & D & _).
  assert (L : forall x y, linked (edges (flatten TransparentBlockGroup nested)) x y <-> In (x, y) [(0, 1); (1, 3); (3, 4); (6, 7)]).
  { intros x y. split.
    - intros (e & He & <- & <-). cbn in He. cbn. intuition (subst; cbn; auto).
    - cbn. intros [H|[H|[H|[H|[]]]]]; injection H as <- <-;
        [exists (arc 0 1)|exists (arc 1 3)|exists (arc 3 4)|exists (arc 6 7)]; cbn; auto 10. }
  split.
  - assert (R : reached (edges (flatten TransparentBlockGroup nested)) 7).
    { exists 1, 6, 1. split; [split|].
      - exists 7. apply L. cbn. auto 10.
      - intros c Hc. apply L in Hc. cbn in Hc. intuition congruence.
      - split; [lia|]. apply (walk_snoc _ _ 0 6); [constructor|]. apply L. cbn. auto 10. }
    exists 7. split; [apply B; exact R|]. split; [apply D; exact R|].
    intros x Hx. apply (proj2 (forEachBlock_holds TransparentBlockGroup nested x)) in Hx. cbn in Hx.
    intuition (subst; discriminate).
  - exists (Blk 5 ScheduledBlockGroup [leaf 6; leaf 7] [arc 6 7]). split; [cbn; auto 10|].
    assert (N : ~ reached (edges (flatten TransparentBlockGroup nested)) 5).
    { intros (n & s & m & ((c & Hc) & _) & _ & Hw). inversion Hw as [E1 E2|k b d Hk Hl E1 E2].
      - subst s. apply L in Hc. cbn in Hc. intuition congruence.
      - apply L in Hl. cbn in Hl. intuition congruence. }
    split; [rewrite B|rewrite D]; exact N.
Qed.
Print Assumptions C92_own_blocks_refuted.

(** ** C93 *)

(** The order of the searching schedulers, before dealing out (a single list keeps it): breadth first starts with the sources
    sorted by name, nearer blocks before further ones, and every block after one that feeds it; depth first always goes
    on from the latest block that has somewhere new to go. *)
Theorem C93_search_order name p threads g a :
  1 <= threads -> sameMap (computeAdjacencyList (edges (flatten TransparentBlockGroup g))) a ->
  let es := edges (flatten TransparentBlockGroup g) in
  let batches l := match p with multiThreaded => Nat.min threads (length l) | _ => 1 end in
  (exists l sources rest,
     (l <> [] -> roundRobin l (batches l) (breadthFirstJobs name p threads a)) /\
     l = sources ++ rest /\ byName name sources /\ (forall b, In b sources <-> isSource es b) /\
     byDistance es l /\ fedFirst es l) /\
  (exists l,
     (l <> [] -> roundRobin l (batches l) (depthFirstJobs name p threads a)) /\
     depthFirst es l /\ fedFirst es l).
Proof.
  intros Ht Ha es batches. apply sameMap_adjOk in Ha. fold es in Ha.
  assert (X : forall l : list nat, l <> [] -> roundRobin l (batches l) (batchBlocks l (nBatches p threads (length l)))).
  { intros l Hl. replace (batches l) with (nBatches p threads (length l)) by (destruct p; reflexivity).
    apply batch_roundRobin. apply nBatches_pos; [exact Ht|]. destruct l; [congruence|cbn; lia]. }
  split.
  - destruct (bfsBlocks_good es a name Ha) as [(t & Et) B1 B2 B3 B4]. exists (bfsBlocks name a), (findSourceBlocks name a), t.
    split; [intros Hl; apply X; exact Hl|]. split; [exact Et|]. split; [apply sources_byName|].
    split; [intros b; apply sources_In; exact Ha|]. split; assumption.
  - destruct (dfsBlocks_good es a name Ha) as [D1 D2 D3]. exists (dfsBlocks name a).
    split; [intros Hl; apply X; exact Hl|]. split; [exact D3|apply depthFirst_fed; exact D3].
Qed.
Print Assumptions C93_search_order.

(** Two sources whose names are in reverse order of creation, meeting at a distance. *)
Example C93_case :
  let name b := if Nat.eqb b 0 then "zeta"%string else "alpha"%string in
  let es := [arc 0 2; arc 2 3; arc2 1 3; arc 3 4; arc 4 3] in
  bfsBlocks name (computeAdjacencyList es) = [1; 0; 3; 2; 4] /\ dfsBlocks name (computeAdjacencyList es) = [1; 3; 4; 0; 2].
Proof. split; reflexivity. Qed.

(** ** C94 *)

(** Splitting a graph into its connected parts, for every way the sort may order parts of equal size. *)
Theorem C94_components ids es order :
  NoDup ids -> distinct es ->
  Permutation order (seq 0 (length (componentSizes ids es))) ->
  StronglySorted (fun a b => nth b (componentSizes ids es) 0 <= nth a (componentSizes ids es) 0) order ->
  components ids es (weaklyConnectedComponents ids es order).
Proof. apply wcc_components. Qed.
Print Assumptions C94_components.

(** Such an order always exists. *)
Example C94_case :
  let ids := [10; 11; 12; 13; 14; 15] in
  let es := [arc 13 12; arc 14 12; arc 10 11] in
  componentSizes ids es = [2; 3; 1] /\
  weaklyConnectedComponents ids es [1; 0; 2] = [([12; 13; 14], [arc 13 12; arc 14 12]); ([10; 11], [arc 10 11]); ([15], [])].
Proof. split; reflexivity. Qed.

(** ** C95 *)

(** What is reported: cycles of the graph that pass no block twice, no two closed by the same edge; and every cycle
    there is contains the closing edge of a reported one, so that cutting those edges leaves none. *)
Theorem C95_feedback_loops g a :
  NoDup (edges g) -> sameMap (computeAdjacencyList (edges g)) a ->
  (forall e, In e (edges g) -> exists b, holds (fun c => c = TransparentBlockGroup \/ c = ScheduledBlockGroup) g b /\ bid b = src e) ->
  let found := detectFeedbackLoops a g in
  (forall c, In c found -> cycle (edges g) c /\ simple c) /\
  (forall c, cycle (edges g) c -> exists e, In e c /\ closes found e) /\
  (forall i j f1 f2 e, nth_error found i = Some (f1 ++ [e]) -> nth_error found j = Some (f2 ++ [e]) -> i = j) /\
  (found = [] <-> forall c, ~ cycle (edges g) c).
Proof.
  intros Hn Ha Hs found. pose proof (sameMap_adjOk _ _ Ha) as Hok.
  destruct (loopsFrom_spec (edges g) a (map bid (forEachBlock AllCat g)) Hok (outOf_NoDup _ _ Hn Ha)) as (fin & F1 & F2 & F3 & F4 & F5).
  fold (detectFeedbackLoops a g) in F3, F4, F5. fold found in F3, F4, F5.
  assert (C : forall c, cycle (edges g) c -> exists e, In e c /\ closes found e).
  { intros c Hc. destruct (cycles_closed (edges g) _ fin F1 F3) with (c := c) as (e & He & Hcl).
    - intros e He. apply F2. destruct (Hs e He) as (b & Hb & E). rewrite <- E. apply in_map.
      apply (proj2 (forEachBlock_holds AllCat g b)). exact Hb.
    - exact Hc.
    - exists e. split; [exact He|]. apply closings_closes. exact Hcl. }
  split; [exact F4|]. split; [exact C|]. split.
  - clear - F5. revert F5. induction found as [|c found IH]; intros F5 i j f1 f2 e Hi Hj; [destruct i; discriminate|].
    assert (T : forall k f, nth_error found k = Some (f ++ [e]) -> In e (closings found)).
    { intros k f H. apply closings_closes. exists (f ++ [e]), f. split; [eapply nth_error_In; exact H|reflexivity]. }
    destruct i as [|i], j as [|j]; cbn in Hi, Hj; [reflexivity| | |].
    + injection Hi as ->. exfalso. unfold closings in F5. cbn [flat_map] in F5. rewrite closingOf_snoc in F5. cbn in F5.
      inversion F5 as [|? ? X Y]; subst. apply X. apply (T j f2). exact Hj.
    + injection Hj as ->. exfalso. unfold closings in F5. cbn [flat_map] in F5. rewrite closingOf_snoc in F5. cbn in F5.
      inversion F5 as [|? ? X Y]; subst. apply X. apply (T i f1). exact Hi.
    + f_equal. apply (IH) with (f1 := f1) (f2 := f2) (e := e); [|exact Hi|exact Hj].
      unfold closings in F5. cbn [flat_map] in F5. apply NoDup_app_iff_local in F5. apply F5.
  - split.
    + intros E c Hc. destruct (C c Hc) as (e & _ & d & f & Hin & _). rewrite E in Hin. destruct Hin.
    + intros H. destruct found as [|c l] eqn:E; [reflexivity|]. exfalso. apply (H c). apply F4. left. reflexivity.
Qed.
Print Assumptions C95_feedback_loops.

(** Blocks 0..3; two loops through the edge from 3 to 0. *)
Definition twoLoops : Graph := mkGraph [leaf 0; leaf 1; leaf 2; leaf 3] [arc 0 1; arc 1 3; arc 0 2; arc2 2 3; arc 3 0].

Example C95_case :
  NoDup (edges twoLoops) /\ detectFeedbackLoops (computeAdjacencyList (edges twoLoops)) twoLoops = [[arc 0 1; arc 1 3; arc 3 0]] /\
  detectFeedbackLoops (computeAdjacencyList [arc 0 1; arc 1 0; arc2 1 1]) (mkGraph [leaf 0; leaf 1] []) = [[arc 0 1; arc 1 0]; [arc2 1 1]].
Proof.
  split; [|split; reflexivity].
  repeat (constructor; [cbn; unfold arc, arc2; intros H; repeat (destruct H as [H|H]; [discriminate|]); exact H|]). constructor.
Qed.

(** Not every loop is reported: the one through 2 is not, since it shares its closing edge; if 2 doubles the rate, the
    graph is unstable and nothing reported is. *)
Theorem C95_all_loops_refuted :
  exists g info c, NoDup (edges g) /\
    (forall e, In e (edges g) -> exists b, In b (blocks g) /\ bid b = src e) /\
    cycle (edges g) c /\ simple c /\
    productOf (fun b => numerator (info b)) c <> productOf (fun b => denominator (info b)) c /\
    let found := detectFeedbackLoops (computeAdjacencyList (edges g)) g in
    (forall d, In d found -> ~ incl c d) /\
    (forall d, In d found -> calculateLoopPrimingSize info d <> None).
Proof.
  exists twoLoops, (fun b => if Nat.eqb b 2 then mkInfo 1 2 0 [1%Z] [] else mkInfo 1 1 0 [1%Z] []), [arc 0 2; arc2 2 3; arc 3 0].
  split; [apply C95_case|]. split.
  { intros e He. cbn in He. intuition (subst; cbn; eauto 10). }
  split.
  { split; [intros e He; cbn in *; intuition (subst; auto 10)|]. split.
    - intros i e e' H1 H2. destruct i as [|[|[|i]]]; cbn in H1, H2; try discriminate; try (destruct i; discriminate); injection H1 as <-; injection H2 as <-; reflexivity.
    - exists (arc 0 2), (arc 3 0), [arc 0 2; arc2 2 3], [arc2 2 3; arc 3 0]. split; [reflexivity|split; reflexivity]. }
  split. { repeat (constructor; [cbn; intuition discriminate|]). constructor. }
  split; [discriminate|]. cbv zeta.
  assert (E : detectFeedbackLoops (computeAdjacencyList (edges twoLoops)) twoLoops = [[arc 0 1; arc 1 3; arc 3 0]]) by reflexivity.
  rewrite E. split.
  - intros d [<-|[]] H. specialize (H (arc 0 2) (or_introl eq_refl)). cbn in H. unfold arc in H. intuition discriminate.
  - intros d [<-|[]]. vm_compute. discriminate.
Qed.
Print Assumptions C95_all_loops_refuted.

(** ** C96 *)
Local Open Scope Z_scope.

(** A loop is refused exactly when the rate changes along it do not cancel, as long as the products fit 32 bits. *)
Theorem C96_stable_loops info c :
  c <> [] ->
  (forall e, In e c -> 1 <= numerator (info (dst e)) /\ 1 <= denominator (info (dst e))) ->
  productOf (fun b => numerator (info b)) c < 2 ^ 31 -> productOf (fun b => denominator (info b)) c < 2 ^ 31 ->
  ((exists n, calculateLoopPrimingSize info c = Some n) <->
   productOf (fun b => numerator (info b)) c = productOf (fun b => denominator (info b)) c).
Proof.
  intros Hc Hp H1 H2. unfold calculateLoopPrimingSize.
  assert (E : cumulative info c = (productOf (fun b => numerator (info b)) c, productOf (fun b => denominator (info b)) c)).
  { unfold cumulative. rewrite (cumulative_exact info c 1 1); [f_equal; apply Z.mul_1_l|lia|lia|exact Hp|lia|lia]. }
  rewrite E. destruct c as [|e c]; [congruence|]. destruct (Z.eqb_spec (productOf (fun b => numerator (info b)) (e :: c)) (productOf (fun b => denominator (info b)) (e :: c))) as [X|X].
  - split; [intros _; exact X|intros _; eexists; reflexivity].
  - split; [intros (n & Y); discriminate|intros Y; contradiction].
Qed.
Print Assumptions C96_stable_loops.

(** The size: at least one sample, at least what every port on the loop, every chunk and every stride asks for, and no
    more than the largest of them.  Blocks whose ports are not in collections. *)
Theorem C96_priming_size info e0 rest n :
  sane (info (src e0)) -> (forall e, In e (e0 :: rest) -> sane (info (dst e))) ->
  (forall e p, In e (e0 :: rest) -> In p (inPorts (info (dst e))) -> exists m, p = SinglePort m /\ plainName m) ->
  (forall e, In e (e0 :: rest) -> exists k, leadsTo (inPorts (info (dst e))) (dstPort e) k) ->
  calculateLoopPrimingSize info (e0 :: rest) = Some n ->
  let first := info (src e0) in
  1 <= n /\ numerator first / denominator first <= n /\ stride first <= n /\
  (forall e k, In e (e0 :: rest) -> leadsTo (inPorts (info (dst e))) (dstPort e) k ->
     nth k (minInput (info (dst e))) 0 <= n /\ numerator (info (dst e)) <= n /\ stride (info (dst e)) <= n) /\
  (n = 1 \/ n = numerator first / denominator first \/ n = stride first \/
   exists e k, In e (e0 :: rest) /\ leadsTo (inPorts (info (dst e))) (dstPort e) k /\
     (n = nth k (minInput (info (dst e))) 0 \/ n = numerator (info (dst e)) \/ n = stride (info (dst e)))).
Proof.
  intros Hs0 Hs Hp Hk Hn first. unfold calculateLoopPrimingSize in Hn. destruct (cumulative info (e0 :: rest)) as [a b].
  destruct (Z.eqb a b); [|discriminate]. injection Hn as <-.
  destruct (samplesNeeded_spec info e0 rest Hs0 Hs) as (S1 & S2 & S3 & S4 & S5). cbv zeta in S1, S2, S3, S4, S5.
  assert (X : forall e k, In e (e0 :: rest) -> leadsTo (inPorts (info (dst e))) (dstPort e) k ->
            portNeed (info (dst e)) (dstPort e) = nth k (minInput (info (dst e))) 0).
  { intros e k He L. unfold portNeed. rewrite (leadsTo_index _ _ k); [reflexivity| |exact L]. intros q Hq. apply (Hp e q He Hq). }
  split; [exact S1|]. split; [exact S2|]. split; [exact S3|]. split.
  - intros e k He L. rewrite <- (X e k He L). apply S4. exact He.
  - destruct S5 as [S|[S|[S|(e & He & S)]]]; [left; exact S|right; left; exact S|right; right; left; exact S|].
    right; right; right. destruct (Hk e He) as (k & L). exists e, k. split; [exact He|]. split; [exact L|].
    rewrite <- (X e k He L). exact S.
Qed.
Print Assumptions C96_priming_size.

(** Enough to get round: if no block of the loop changes the rate and every chunk divides the number of samples put in,
    the samples pass every block of the loop once, each finding at least what it asks for. *)
Theorem C96_goes_round info c n need :
  cycle c c ->
  (forall e, In e c -> sane (info (dst e))) ->
  (forall e p, In e c -> In p (inPorts (info (dst e))) -> exists m, p = SinglePort m /\ plainName m) ->
  (forall e, In e c -> exists k, leadsTo (inPorts (info (dst e))) (dstPort e) k /\ need (dst e) = nth k (minInput (info (dst e))) 0) ->
  (forall e, In e c -> numerator (info (dst e)) = denominator (info (dst e))) ->
  calculateLoopPrimingSize info c = Some n ->
  (forall e, In e c -> (numerator (info (dst e)) | n)) ->
  flows (fun b => numerator (info b)) (fun b => denominator (info b)) need (map src c) n.
Proof.
  intros (_ & Hcon & f & l & front & rest & E1 & E2 & Ecl) Hs Hp Hneed Heq Hn Hdiv.
  assert (Hsrc : forall b, In b (map src c) -> exists e, In e c /\ dst e = b).
  { intros b Hb. apply in_map_iff in Hb as (e & <- & He). apply In_nth_error in He as (i & Hi). destruct i as [|i].
    - rewrite E1 in Hi. cbn in Hi. injection Hi as <-. exists l. split; [rewrite E2; apply in_app_iff; right; left; reflexivity|exact Ecl].
    - assert (L : (i < length c)%nat).
      { assert (S i < length c)%nat by (apply nth_error_Some; congruence). lia. }
      destruct (nth_error c i) as [d|] eqn:Ed; [|apply nth_error_None in Ed; lia].
      exists d. split; [eapply nth_error_In; exact Ed|apply (Hcon i d e Ed Hi)]. }
  assert (Hs0 : sane (info (src f))).
  { destruct (Hsrc (src f)) as (e & He & <-); [rewrite E1; left; reflexivity|apply Hs; exact He]. }
  subst c.
  destruct (C96_priming_size info f rest n Hs0 Hs Hp) as (P1 & _ & _ & P4 & _); [| exact Hn|].
  { intros e He. destruct (Hneed e He) as (k & L & _). exists k. exact L. }
  apply flows_steady; [lia|]. intros b Hb. destruct (Hsrc b Hb) as (e & He & <-).
  split; [apply Heq; exact He|]. split; [destruct (Hs e He) as [[X _] _]; lia|]. split; [apply Hdiv; exact He|].
  destruct (Hneed e He) as (k & L & ->). apply (P4 e k He L).
Qed.
Print Assumptions C96_goes_round.

(** A block with one port "in" that takes chunks of [k] and passes them on unchanged. *)
Definition chunked (k : Z) : BlockInfo := mkInfo k k 0 [k] [SinglePort "in"%string].

(** A loop of two blocks with chunks 2 and 4: four samples are put in, and both get what they need. *)
Example C96_case :
  let info b := if Nat.eqb b 0%nat then chunked 2 else chunked 4 in
  let c := [arc 0 1; arc 1 0] in
  cycle c c /\ (forall e, In e c -> sane (info (dst e))) /\
  (forall e p, In e c -> In p (inPorts (info (dst e))) -> exists m, p = SinglePort m /\ plainName m) /\
  (forall e, In e c -> leadsTo (inPorts (info (dst e))) (dstPort e) 0) /\
  calculateLoopPrimingSize info c = Some 4 /\ (forall e, In e c -> (numerator (info (dst e)) | 4)).
Proof.
  cbv zeta. split.
  { split; [apply incl_refl|]. split.
    - intros i e e' H1 H2. destruct i as [|[|i]]; cbn in H1, H2; try discriminate; try (destruct i; discriminate); injection H1 as <-; injection H2 as <-; reflexivity.
    - exists (arc 0 1), (arc 1 0), [arc 0 1], [arc 1 0]. split; [reflexivity|split; reflexivity]. }
  split. { intros e [<-|[<-|[]]]; cbn; unfold sane, chunked; cbn; lia. }
  split. { intros e p [<-|[<-|[]]] [<-|[]]; (exists "in"%string; split; [reflexivity|]; unfold plainName; cbn; intuition discriminate). }
  split. { intros e [<-|[<-|[]]]; apply (leads_index _ 0%N None "in"%string); reflexivity. }
  split; [reflexivity|]. intros e [<-|[<-|[]]]; cbn; [exists 1|exists 2]; reflexivity.
Qed.

(** Beyond 32 bits the products wrap: 65536 * 65536 against 65536 * 131072 counts as stable although the loop doubles the rate. *)
Theorem C96_overflow_refuted :
  exists info c n, c <> [] /\ (forall e, In e c -> sane (info (dst e))) /\
    productOf (fun b => numerator (info b)) c <> productOf (fun b => denominator (info b)) c /\
    calculateLoopPrimingSize info c = Some n.
Proof.
  exists (fun b => if Nat.eqb b 0%nat then mkInfo 65536 65536 0 [1] [] else mkInfo 65536 131072 0 [1] []), [arc 0 1; arc 1 0], 65536.
  split; [discriminate|]. split; [intros e [<-|[<-|[]]]; cbn; unfold sane; cbn; lia|]. split; [vm_compute; discriminate|reflexivity].
Qed.
Print Assumptions C96_overflow_refuted.

(** The size is not always enough to get round once: chunks of 2 and of 3 get three samples, the block taking 2 passes on
    two of them, and the block taking 3 is stuck; and a stable loop of a 4:1 and a 4:16 block gets four, the first passes
    on one, the second is stuck. *)
Theorem C96_goes_round_refuted :
  (exists info c n, cycle c c /\ simple c /\ (forall e, In e c -> sane (info (dst e)) /\ numerator (info (dst e)) = denominator (info (dst e))) /\
    calculateLoopPrimingSize info c = Some n /\
    ~ flows (fun b => numerator (info b)) (fun b => denominator (info b)) (fun _ => 0) (map src c) n) /\
  (exists info c n, cycle c c /\ simple c /\ (forall e, In e c -> sane (info (dst e))) /\
    productOf (fun b => numerator (info b)) c = productOf (fun b => denominator (info b)) c /\
    calculateLoopPrimingSize info c = Some n /\
    (forall e, In e c -> (numerator (info (dst e)) | n)) /\
    ~ flows (fun b => numerator (info b)) (fun b => denominator (info b)) (fun _ => 0) (map src c) n).
Proof.
  assert (C : cycle [arc 0 1; arc 1 0] [arc 0 1; arc 1 0]) by (apply C96_case).
  assert (S : simple [arc 0 1; arc 1 0]).
  { repeat (constructor; [cbn; intuition discriminate|]). constructor. }
  split.
  - exists (fun b => if Nat.eqb b 0%nat then chunked 2 else chunked 3), [arc 0 1; arc 1 0], 3.
    split; [exact C|]. split; [exact S|]. split; [intros e [<-|[<-|[]]]; cbn; unfold sane, chunked; cbn; lia|]. split; [reflexivity|].
    cbn. unfold passes. intros (_ & _ & _ & H & _). revert H. vm_compute. intros H. apply H. reflexivity.
  - exists (fun b => if Nat.eqb b 0%nat then mkInfo 4 1 0 [1] [] else mkInfo 4 16 0 [1] []), [arc 0 1; arc 1 0], 4.
    split; [exact C|]. split; [exact S|]. split; [intros e [<-|[<-|[]]]; cbn; unfold sane; cbn; lia|]. split; [reflexivity|].
    split; [reflexivity|]. split; [intros e [<-|[<-|[]]]; cbn; exists 1; reflexivity|].
    cbn. unfold passes. intros (_ & _ & _ & H & _). revert H. vm_compute. intros H. apply H. reflexivity.
Qed.
Print Assumptions C96_goes_round_refuted.

(** After a collection of ports the wrong minimum is looked up: port "b" asks for 8, the loop gets 1. *)
Theorem C96_port_collection_refuted :
  exists info c n e k, In e c /\ (forall x, In x c -> sane (info (dst x))) /\
    leadsTo (inPorts (info (dst e))) (dstPort e) k /\ calculateLoopPrimingSize info c = Some n /\ n < nth k (minInput (info (dst e))) 0.
Proof.
  exists (fun b => if Nat.eqb b 0%nat then mkInfo 1 1 0 [1; 1; 8] [PortCollection "ins"%string 2; SinglePort "b"%string] else mkInfo 1 1 0 [1] [SinglePort "in"%string]),
    [arc 0 1; arc2 1 0], 1, (arc2 1 0), 2%nat.
  split; [cbn; auto|]. split; [intros x [<-|[<-|[]]]; cbn; unfold sane; cbn; lia|].
  split; [apply (leads_index [PortCollection "ins"%string 2; SinglePort "b"%string] 1%N None "b"%string); reflexivity|].
  split; [reflexivity|]. cbn. lia.
Qed.
Print Assumptions C96_port_collection_refuted.
Local Open Scope nat_scope.

(** ** C97 *)

(** Flattening: the blocks are those of the graph and of the groups looked into; the edges are those of the graph and of the
    blocks found, each connection once. *)
Theorem C97_flatten t g :
  let into c := match t with AllCat => c = TransparentBlockGroup \/ c = ScheduledBlockGroup | _ => c = t end in
  let f := flatten t g in
  (forall b, In b (blocks f) <-> holds into g b) /\
  distinct (edges f) /\
  (forall e, In e (edges f) -> In e (edges g) \/ exists b, holds into g b /\ In e (binner b)) /\
  (forall e, In e (edges g) \/ (exists b, holds into g b /\ In e (binner b)) -> exists x, In x (edges f) /\ connection x = connection e) /\
  countBlocks t g = length (blocks f).
Proof.
  intros into f. destruct (flatten_edges t g) as (F1 & F2 & F3).
  split; [intros b; apply (forEachBlock_holds t g b)|]. split; [exact F1|]. split; [exact F2|]. split; [exact F3|reflexivity].
Qed.
Print Assumptions C97_flatten.

Example C97_case :
  map bid (blocks (flatten TransparentBlockGroup nested)) = [0; 1; 2; 5; 3; 4] /\
  edges (flatten TransparentBlockGroup nested) = [arc 0 1; arc 1 3; arc 3 4; arc 6 7] /\
  map bid (blocks (flatten AllCat nested)) = [0; 1; 2; 5; 3; 4; 6; 7].
Proof. split; [|split]; reflexivity. Qed.

(** The flattened graph is not closed: it has edges between blocks it does not hold, those inside a group not looked into. *)
Theorem C97_closed_refuted :
  exists t g e, In e (edges (flatten t g)) /\ (forall b, In b (blocks (flatten t g)) -> bid b <> src e /\ bid b <> dst e).
Proof.
  exists TransparentBlockGroup, nested, (arc 6 7). split; [cbn; auto 10|].
  intros b Hb. cbn in Hb. intuition (subst; discriminate).
Qed.
Print Assumptions C97_closed_refuted.
