(* Theorems about merged blocks. *)

From Coq Require Import Arith ZArith List Bool Lia.
From Verif Require Import MergeModel MergeSpec MergeProofs.
Import ListNotations.

Local Open Scope nat_scope.

(* ---------------- examples ---------------- *)

(* A delay of one sample, a block adding a constant, one with a sum and a
   difference as outputs. *)
Definition delayB : leaf (X := nat) (A := nat) := mkLeaf 1 1 (fun s ins => (nth 0 ins 0, [s])).
Definition addB (k : nat) : leaf (X := nat) (A := nat) := mkLeaf 1 1 (fun s ins => (s, [nth 0 ins 0 + k])).
Definition sumB : leaf (X := nat) (A := nat) := mkLeaf 2 2 (fun s ins => (s + 1, [nth 0 ins 0 + nth 1 ins 0; nth 0 ins 0 - nth 1 ins 0])).

Definition treeEx := Merge (Merge (Leaf delayB) 0 (Leaf sumB) 1) 1 (Leaf (addB 10)) 0.

Example C199_good_ex : good treeEx.
Proof.
  unfold treeEx. cbn [good nOut nIn]. repeat split; try (cbn; lia); intros x ins H; reflexivity.
Qed.
Example C199_run_ex : runs 0 treeEx [5; 0; 0] [[1; 7]; [2; 8]; [3; 9]] = ([3; 3; 0], [[12; 12]; [9; 17]; [11; 17]]).
Proof. reflexivity. Qed.

(* ---------------- C199: merging is connecting ---------------- *)

(* The merged block's output is what the two blocks give when the left one is
   run over the whole stream first and the right one over its output. *)
Theorem C199_merge : forall (X A : Type) (d : A) (l r : blk (X := X) (A := A)) o i sl sr xs,
  good (Merge l o r i) -> length sl = leaves l -> length sr = leaves r ->
  Forall (fun x => length x = nIn (Merge l o r i)) xs ->
  let '(sl', lo) := runs d l sl (map (firstn (nIn l)) xs) in
  let '(sr', ro) := runs d r sr (zip (fun y x => insertAt i (nth o y d) (skipn (nIn l) x)) lo xs) in
  runs d (Merge l o r i) (sl ++ sr) xs = (sl' ++ sr', zip (fun y z => removeAt o y ++ z) lo ro).
Proof. intros. apply runs_merge; assumption. Qed.
Print Assumptions C199_merge.

(* Every sample has as many values as the merged block has outputs. *)
Theorem C199_outputs : forall (X A : Type) (d : A) (t : blk (X := X) (A := A)) st ins, good t -> length st = leaves t -> length ins = nIn t ->
  length (snd (processOne d t st ins)) = nOut t.
Proof. intros X A d t st ins Hg Hs Hi. apply (process_sizes d t st ins Hg Hs Hi). Qed.
Print Assumptions C199_outputs.

(* Calls in pieces give what one run over the whole stream gives. *)
Theorem C199_pieces : forall (X A : Type) (d : A) (t : blk (X := X) (A := A)) st xs ys,
  runs d t st (xs ++ ys) = (fst (runs d t (fst (runs d t st xs)) ys), snd (runs d t st xs) ++ snd (runs d t (fst (runs d t st xs)) ys)).
Proof.
  intros X A d t st xs. revert st. induction xs as [|x xs IH]; intros st ys; cbn [app runs fst snd].
  - destruct (runs d t st ys); reflexivity.
  - destruct (processOne d t st x) as [s o]. rewrite IH. destruct (runs d t s xs) as [s' os]. cbn [fst snd].
    destruct (runs d t s' ys). reflexivity.
Qed.
Print Assumptions C199_pieces.

(* A chain merged from the left is the chain merged from the right. *)
Theorem C199_chain : forall (X A : Type) (d : A) (a b c : blk (X := X) (A := A)) st ins,
  good a -> good b -> good c -> nIn a = 1 -> nOut a = 1 -> nIn b = 1 -> nOut b = 1 -> nIn c = 1 -> nOut c = 1 ->
  length st = leaves a + leaves b + leaves c -> length ins = 1 ->
  processOne d (Merge (Merge a 0 b 0) 0 c 0) st ins = processOne d (Merge a 0 (Merge b 0 c 0) 0) st ins.
Proof.
  intros X A d a b c st ins Ga Gb Gc A1 A2 B1 B2 C1 C2 Hs Hi.
  destruct (split_at _ st (leaves a) (leaves b + leaves c) ltac:(lia)) as (sa & s' & -> & La & Ls).
  destruct (split_at _ s' (leaves b) (leaves c) Ls) as (sb & sc & -> & Lb & Lc).
  destruct ins as [|x [|? ?]]; cbn [length] in Hi; try lia.
  cbn [processOne nIn leaves]. rewrite A1, B1. cbn [firstn skipn Nat.add Nat.sub app].
  rewrite <- La. rewrite <- Lb.
  rewrite !app_assoc.
  assert (E1 : firstn (length sa + length sb) ((sa ++ sb) ++ sc) = sa ++ sb).
  { rewrite <- app_length, firstn_app, firstn_all, Nat.sub_diag. cbn [firstn]. apply app_nil_r. }
  assert (E2 : skipn (length sa + length sb) ((sa ++ sb) ++ sc) = sc).
  { rewrite <- app_length, skipn_app, skipn_all, Nat.sub_diag. reflexivity. }
  rewrite E1, E2. rewrite <- !app_assoc.
  assert (F1 : forall (u v : list X), firstn (length u) (u ++ v) = u).
  { intros u v. rewrite firstn_app, firstn_all, Nat.sub_diag. cbn [firstn]. apply app_nil_r. }
  assert (F2 : forall (u v : list X), skipn (length u) (u ++ v) = v).
  { intros u v. rewrite skipn_app, skipn_all, Nat.sub_diag. reflexivity. }
  repeat first [rewrite F1 | rewrite F2].
  pose proof (process_sizes d a sa [x] Ga La ltac:(rewrite A1; reflexivity)) as [P1 P2].
  destruct (processOne d a sa [x]) as [sa' oa]. cbn [fst snd] in P1, P2.
  pose proof (process_sizes d b sb [nth 0 oa d] Gb Lb ltac:(rewrite B1; reflexivity)) as [Q1 Q2].
  destruct (processOne d b sb [nth 0 oa d]) as [sb' ob]. cbn [fst snd] in Q1, Q2.
  destruct oa as [|va [|? ?]]; cbn [length] in P2; try lia.
  destruct ob as [|vb [|? ?]]; cbn [length] in Q2; try lia.
  unfold removeAt. cbn [firstn skipn app nth].
  destruct (processOne d c sc [vb]) as [sc' oc]. rewrite app_assoc. reflexivity.
Qed.
Print Assumptions C199_chain.

(* ---------------- C200: the displayed graph ---------------- *)

(* graph() of nested merges, evaluated as a graph of connected blocks, has one
   solution for each sample, and it is what processOne computes. *)
Theorem C200_graph : forall (X A : Type) (d : A) (t : blk (X := X) (A := A)) st ins, good t -> length st = leaves t -> length ins = nIn t ->
  (exists w st', settles d (graphOf t) st ins w st') /\
  forall w st', settles d (graphOf t) st ins w st' -> processOne d t st ins = (st', map (portOut d w) (outs (graphOf t))).
Proof.
  intros X A d t st ins Hg Hs Hi. split.
  - apply graph_settles; assumption.
  - intros w st' H. apply graph_unique; assumption.
Qed.
Print Assumptions C200_graph.

(* The graph has every inner block once, one edge for each merge, and the
   merged block's ports. *)
Theorem C200_sizes : forall (X A : Type) (t : blk (X := X) (A := A)), good t ->
  length (nodes (graphOf t)) = leaves t /\ S (length (edges (graphOf t))) = leaves t /\
  length (outs (graphOf t)) = nOut t /\ length (inps (graphOf t)) = nIn t.
Proof.
  intros X A t Hg. destruct (graph_sizes t Hg) as (H1 & H2 & H3 & _).
  split; [exact H1|]. split; [|split; assumption].
  clear. induction t as [b|l IHl o r IHr i]; [reflexivity|].
  cbn [graphOf edges leaves]. rewrite !app_length, map_length. cbn [length]. lia.
Qed.
Print Assumptions C200_sizes.

Example C200_ex : edges (graphOf treeEx) = [((0, 0), (1, 1)); ((1, 1), (2, 0))] /\ inps (graphOf treeEx) = [(0, 0); (1, 0)] /\ outs (graphOf treeEx) = [(1, 0); (2, 0)].
Proof. repeat split. Qed.

(* ---------------- C201: feedback ---------------- *)

(* Output and feedback are the one solution of: the forward block is run on the
   inputs with the feedback stream, one sample late and led by the start value,
   in its place; the feedback block is run on the (monitored) output. *)
Theorem C201_tap : forall (F B N A : Type) (fwd : F -> list A -> F * A) (fbk : B -> A -> B * A) (mon : N -> A -> N * A) idx xs sf sb sn v os fs,
  Forall (fun x => idx <= length x) xs -> length os = length xs -> length fs = length xs ->
  (snd (runM (tapStep fwd fbk mon idx) (mkF sf sb sn v) xs) = combine os fs <->
   os = snd (runM fwd sf (zip (insertAt idx) (v :: fs) xs)) /\ fs = snd (runM fbk sb (snd (runM mon sn os)))).
Proof. intros. apply tap_stream; assumption. Qed.
Print Assumptions C201_tap.

(* Without the tap the output is the same. *)
Theorem C201_output : forall (F B N A : Type) (fwd : F -> list A -> F * A) (fbk : B -> A -> B * A) (mon : N -> A -> N * A) idx xs st,
  snd (runM (fbStep fwd fbk mon idx) st xs) = map fst (snd (runM (tapStep fwd fbk mon idx) st xs)) /\
  length (snd (runM (fbStep fwd fbk mon idx) st xs)) = length xs.
Proof. intros. split; [apply fb_tap|apply runM_length]. Qed.
Print Assumptions C201_output.

(* The output up to a sample depends on the inputs up to it only. *)
Theorem C201_causal : forall (F B N A : Type) (fwd : F -> list A -> F * A) (fbk : B -> A -> B * A) (mon : N -> A -> N * A) idx xs ys st,
  firstn (length xs) (snd (runM (tapStep fwd fbk mon idx) st (xs ++ ys))) = snd (runM (tapStep fwd fbk mon idx) st xs).
Proof.
  intros F B N A fwd fbk mon idx xs ys. induction xs as [|x xs IH]; intros st; [reflexivity|].
  cbn [app length]. rewrite !runM_cons. cbn [firstn]. f_equal. apply IH.
Qed.
Print Assumptions C201_causal.

(* An adder with a halved output fed back: y(n) = x(n) + y(n-1) / 2. *)
Example C201_ex : snd (runM (tapStep (fun (s : unit) l => (s, nth 0 l 0%Z + nth 1 l 0%Z)%Z) (fun (s : unit) x => (s, x / 2)%Z) (fun (s : unit) x => (s, x)) 1)
    (mkF tt tt tt 0%Z) [[8%Z]; [0%Z]; [4%Z]]) = [(8, 4); (4, 2); (6, 3)]%Z.
Proof. reflexivity. Qed.

(* ---------------- C202: sums of paths ---------------- *)

Definition nthZ (n : nat) (l : list Z) : Z := nth n l 0%Z.
(* The paths' own streams, added with their signs. *)
Fixpoint total (signs : list Z) (i : nat) (vs : list Z) : Z :=
  match vs with [] => 0%Z | v :: r => ((match nth_error signs i with Some s => s | None => 1 end) * v + total signs (S i) r)%Z end.

Lemma zip_nth : forall n (f : Z -> Z -> Z) l k, length l = length k -> n < length l -> nthZ n (zip f l k) = f (nthZ n l) (nthZ n k).
Proof.
  induction n as [|n IH]; intros f l k H Hn; destruct l as [|a l]; destruct k as [|b k]; cbn [length] in *; try lia; [reflexivity|].
  cbn [zip]. unfold nthZ in *. cbn [nth]. apply IH; lia.
Qed.
Lemma zip_length : forall (f : Z -> Z -> Z) l k, length l = length k -> length (zip f l k) = length l.
Proof. induction l as [|a l IH]; intros [|b k] H; cbn [length] in *; try lia; cbn [zip length]; [reflexivity|]. rewrite IH; lia. Qed.
Lemma signOf_error : forall signs i, signOf signs i = match nth_error signs i with Some s => s | None => 1%Z end.
Proof.
  unfold signOf. induction signs as [|s r IH]; intros i; destruct i as [|i]; try reflexivity. cbn [nth nth_error]. apply IH.
Qed.
Lemma addAll_total : forall n signs k ls i, Forall (fun l => length l = n) ls -> k < n ->
  length (addAll n signs i ls) = n /\ nthZ k (addAll n signs i ls) = total signs i (map (nthZ k) ls).
Proof.
  induction ls as [|l ls IH]; intros i H Hk.
  - cbn [addAll map total]. split; [apply repeat_length|]. unfold nthZ. rewrite nth_repeat. reflexivity.
  - assert (H1 := Forall_inv H). cbv beta in H1. destruct (IH (S i) (Forall_inv_tail H) Hk) as [L E].
    cbn [addAll map total]. split; [rewrite zip_length; lia|].
    rewrite zip_nth by lia. rewrite E, signOf_error. reflexivity.
Qed.

(* Each output sample is the sum, with their signs, of what the paths give when
   each runs alone over the input; paths without a sign count with one, signs
   without a path do not count. *)
Theorem C202_sum : forall (X A : Type) (signs : list Z) (paths : list (X -> A -> X * Z)) (st : list X) xs k, length paths = length st -> k < length xs ->
  length (snd (runM (smcStep signs paths) st xs)) = length xs /\
  nthZ k (snd (runM (smcStep signs paths) st xs)) = total signs 0 (map (fun ps => nthZ k (snd (runM (fst ps) (snd ps) xs))) (combine paths st)).
Proof.
  intros X A signs paths st xs k H Hk. split; [apply runM_length|].
  rewrite smc_stream by exact H.
  assert (E : forall paths (st : list X), runAll paths st xs = map (fun ps => snd (runM (fst ps) (snd ps) xs)) (combine paths st)).
  { clear. induction paths as [|p ps IH]; intros st; destruct st as [|s ss]; try reflexivity. cbn [runAll combine map fst snd]. f_equal. apply IH. }
  rewrite E. destruct (addAll_total (length xs) signs k (map (fun ps => snd (runM (fst ps) (snd ps) xs)) (combine paths st)) 0) as [_ R].
  - apply Forall_forall. intros l Hl. apply in_map_iff in Hl. destruct Hl as (ps & <- & _). apply runM_length.
  - exact Hk.
  - rewrite R. rewrite map_map. reflexivity.
Qed.
Print Assumptions C202_sum.

Example C202_ex : snd (runM (smcStep [1; -1]%Z [fun (s : Z) x => (s, x * 2)%Z; fun (s : Z) (x : Z) => (x, s); fun (s : Z) (_ : Z) => ((s + 1)%Z, s)]) [0; 0; 100]%Z [5; 6; 7]%Z) = [110; 108; 110]%Z.
Proof. reflexivity. Qed.
