(* Proofs for merged blocks. *)

From Coq Require Import Arith ZArith List Bool Lia.
From Verif Require Import MergeModel MergeSpec.
Import ListNotations.

Local Open Scope nat_scope.

(* ---------------- lists ---------------- *)

Lemma insertAt_split : forall (B : Type) n (x : B) l, n <= length l -> firstn n l ++ x :: skipn n l = insertAt n x l.
Proof.
  induction n as [|n IH]; intros x l Hn; [reflexivity|].
  destruct l as [|y r]; cbn [length] in Hn; [lia|].
  cbn [firstn skipn insertAt app]. f_equal. apply IH; lia.
Qed.

Lemma insertAt_length : forall (B : Type) n (x : B) l, length (insertAt n x l) = S (length l).
Proof.
  induction n as [|n IH]; intros x l; [reflexivity|]. destruct l as [|y r]; [reflexivity|].
  cbn [insertAt length]. rewrite IH. reflexivity.
Qed.

Lemma removeAt_length : forall (B : Type) n (l : list B), n < length l -> length (removeAt n l) = length l - 1.
Proof.
  intros B n l Hn. unfold removeAt. rewrite app_length, firstn_length, skipn_length. lia.
Qed.

Lemma insert_remove : forall (B : Type) n (l : list B) e, n < length l -> insertAt n (nth n l e) (removeAt n l) = l.
Proof.
  induction n as [|n IH]; intros l e Hn; destruct l as [|y r]; cbn [length] in Hn; try lia.
  - reflexivity.
  - unfold removeAt in *. cbn [nth firstn skipn app insertAt]. f_equal. apply (IH r e). lia.
Qed.

Lemma remove_insert : forall (B : Type) n (x : B) l, n <= length l -> removeAt n (insertAt n x l) = l.
Proof.
  induction n as [|n IH]; intros x l Hn; [reflexivity|].
  destruct l as [|y r]; cbn [length] in Hn; [lia|].
  cbn [insertAt]. unfold removeAt in *. cbn [firstn skipn app]. f_equal. apply IH. lia.
Qed.

Lemma nth_insertAt : forall (B : Type) n (x : B) l e, n <= length l -> nth n (insertAt n x l) e = x.
Proof.
  induction n as [|n IH]; intros x l e Hn; [reflexivity|].
  destruct l as [|y r]; cbn [length] in Hn; [lia|]. cbn [insertAt nth]. apply IH. lia.
Qed.

Lemma map_removeAt : forall (B C : Type) (f : B -> C) n l, map f (removeAt n l) = removeAt n (map f l).
Proof.
  intros. unfold removeAt. rewrite map_app, firstn_map, skipn_map. reflexivity.
Qed.

Lemma incl_removeAt : forall (B : Type) (P : B -> Prop) n l, Forall P l -> Forall P (removeAt n l).
Proof.
  intros B P n l H. rewrite Forall_forall in *. intros x Hx. unfold removeAt in Hx. apply in_app_or in Hx.
  rewrite <- (firstn_skipn n l) in H. destruct Hx as [Hx|Hx].
  - apply H. apply in_or_app. left. exact Hx.
  - apply H. apply in_or_app. right.
    assert (E : skipn (S n) l = skipn 1 (skipn n l)).
    { clear. revert l. induction n as [|n IH]; intros l; [reflexivity|]. destruct l as [|y r]; [reflexivity|].
      change (skipn (S (S n)) (y :: r)) with (skipn (S n) r). rewrite IH. reflexivity. }
    rewrite E in Hx. destruct (skipn n l); [destruct Hx|]. right. exact Hx.
Qed.

Section P.
Context {X A : Type} (d : A).
Notation blk := (blk (X := X) (A := A)).

Lemma leaves_pos : forall t : blk, 0 < leaves t.
Proof. induction t as [b|l IHl o r IHr i]; cbn [leaves]; lia. Qed.

(* ---------------- sizes ---------------- *)

Lemma process_sizes : forall (t : blk) st ins, good t -> length st = leaves t -> length ins = nIn t ->
  length (fst (processOne d t st ins)) = leaves t /\ length (snd (processOne d t st ins)) = nOut t.
Proof.
  induction t as [b|l IHl o r IHr i]; intros st ins Hg Hs Hi.
  - cbn [leaves] in Hs. destruct st as [|x [|y st]]; cbn [length] in Hs; try lia.
    cbn [processOne leaves nOut]. cbn [good] in Hg. pose proof (Hg x ins Hi) as H.
    destruct (fn b x ins) as [x' o] eqn:E. cbn [fst snd length] in *. split; [reflexivity|exact H].
  - cbn [good] in Hg. destruct Hg as (Gl & Gr & Ho & Hr). cbn [leaves] in Hs. cbn [nIn] in Hi.
    cbn [processOne leaves nOut].
    assert (Ll : length (firstn (leaves l) st) = leaves l) by (rewrite firstn_length; lia).
    assert (Li : length (firstn (nIn l) ins) = nIn l) by (rewrite firstn_length; lia).
    specialize (IHl _ _ Gl Ll Li).
    destruct (processOne d l (firstn (leaves l) st) (firstn (nIn l) ins)) as [sl lo]. cbn [fst snd] in IHl.
    destruct IHl as [A1 A2].
    assert (Rl : length (skipn (leaves l) st) = leaves r) by (rewrite skipn_length; lia).
    assert (Rest : length (skipn (nIn l) ins) = nIn r - 1) by (rewrite skipn_length; lia).
    assert (Ri : length (firstn i (skipn (nIn l) ins) ++ nth o lo d :: skipn i (skipn (nIn l) ins)) = nIn r).
    { rewrite insertAt_split by lia. rewrite insertAt_length. lia. }
    specialize (IHr _ _ Gr Rl Ri).
    destruct (processOne d r (skipn (leaves l) st) _) as [sr ro]. cbn [fst snd] in IHr |- *.
    destruct IHr as [B1 B2]. split.
    + rewrite app_length. lia.
    + rewrite app_length, removeAt_length by lia. lia.
Qed.

(* ---------------- the streams of a merged block ---------------- *)

Lemma runs_merge : forall xs (l : blk) o (r : blk) i (sl sr : list X), good (Merge l o r i) -> length sl = leaves l -> length sr = leaves r ->
  Forall (fun x => length x = nIn (Merge l o r i)) xs ->
  let '(sl', lo) := runs d l sl (map (firstn (nIn l)) xs) in
  let '(sr', ro) := runs d r sr (zip (fun y x => insertAt i (nth o y d) (skipn (nIn l) x)) lo xs) in
  runs d (Merge l o r i) (sl ++ sr) xs = (sl' ++ sr', zip (fun y z => removeAt o y ++ z) lo ro).
Proof.
  induction xs as [|x xs IH]; intros l o r i sl sr Hg Hl Hr Hx.
  - cbn [runs map zip]. reflexivity.
  - assert (H1 := Forall_inv Hx). assert (H2 := Forall_inv_tail Hx). cbv beta in H1.
    cbn [runs map]. cbn [processOne].
    rewrite <- Hl, firstn_app, skipn_app, firstn_all, skipn_all, Nat.sub_diag. cbn [firstn skipn app]. rewrite app_nil_r.
    pose proof Hg as Hg'. cbn [good] in Hg'. destruct Hg' as (Gl & Gr & Ho & Hi). cbn [nIn] in H1.
    assert (Li : length (firstn (nIn l) x) = nIn l) by (rewrite firstn_length; lia).
    pose proof (process_sizes l sl _ Gl Hl Li) as [A1 A2].
    destruct (processOne d l sl (firstn (nIn l) x)) as [sl1 lo1]. cbn [fst snd] in A1, A2.
    assert (Rest : length (skipn (nIn l) x) = nIn r - 1) by (rewrite skipn_length; lia).
    rewrite insertAt_split by lia.
    assert (Ri : length (insertAt i (nth o lo1 d) (skipn (nIn l) x)) = nIn r) by (rewrite insertAt_length; lia).
    pose proof (process_sizes r sr _ Gr Hr Ri) as [B1 B2].
    destruct (processOne d r sr (insertAt i (nth o lo1 d) (skipn (nIn l) x))) as [sr1 ro1] eqn:Er. cbn [fst snd] in B1, B2.
    specialize (IH l o r i sl1 sr1 Hg A1 B1 H2).
    destruct (runs d l sl1 (map (firstn (nIn l)) xs)) as [sl2 lo2].
    cbn [zip runs]. rewrite Er.
    destruct (runs d r sr1 (zip (fun y x0 => insertAt i (nth o y d) (skipn (nIn l) x0)) lo2 xs)) as [sr2 ro2].
    rewrite IH. reflexivity.
Qed.

(* ---------------- the graph of a merged block ---------------- *)

Definition scoped (g : net (X := X) (A := A)) : Prop :=
  Forall (fun p => fst p < length (nodes g)) (outs g) /\ Forall (fun p => fst p < length (nodes g)) (inps g) /\
  Forall (fun e : (nat * nat) * (nat * nat) => fst (fst e) < length (nodes g) /\ fst (snd e) < length (nodes g)) (edges g).

Lemma graph_sizes : forall t : blk, good t ->
  length (nodes (graphOf t)) = leaves t /\ length (outs (graphOf t)) = nOut t /\ length (inps (graphOf t)) = nIn t /\ scoped (graphOf t).
Proof.
  induction t as [b|l IHl o r IHr i]; intros Hg.
  - cbn [graphOf nodes outs inps leaves nOut nIn length]. rewrite !map_length, !seq_length.
    repeat split; cbn [outs inps edges nodes length].
    + apply Forall_forall. intros p Hp. apply in_map_iff in Hp. destruct Hp as (k & <- & _). cbn [fst]. lia.
    + apply Forall_forall. intros p Hp. apply in_map_iff in Hp. destruct Hp as (k & <- & _). cbn [fst]. lia.
    + constructor.
  - cbn [good] in Hg. destruct Hg as (Gl & Gr & Ho & Hi). destruct (IHl Gl) as (L1 & L2 & L3 & L4 & L5 & L6). destruct (IHr Gr) as (R1 & R2 & R3 & R4 & R5 & R6).
    clear IHl IHr.
    cbn [graphOf]. cbn [nodes outs inps leaves nOut nIn]. unfold scoped. cbn [nodes outs inps edges].
    assert (U : forall ps, Forall (fun p => fst p < length (nodes (graphOf r))) ps ->
              Forall (fun p => fst p < length (nodes (graphOf l) ++ nodes (graphOf r))) (map (up (length (nodes (graphOf l)))) ps)).
    { intros ps H. rewrite Forall_map. eapply Forall_impl; [|exact H]. intros p Hp. cbv beta in Hp. unfold up. cbn [fst]. rewrite app_length. lia. }
    assert (V : forall ps, Forall (fun p : nat * nat => fst p < length (nodes (graphOf l))) ps ->
              Forall (fun p => fst p < length (nodes (graphOf l) ++ nodes (graphOf r))) ps).
    { intros ps H. eapply Forall_impl; [|exact H]. intros p Hp. cbv beta in Hp. rewrite app_length. lia. }
    repeat split.
    + rewrite app_length. lia.
    + rewrite app_length, removeAt_length, map_length by lia. lia.
    + rewrite app_length, removeAt_length, map_length; [lia|]. rewrite map_length. lia.
    + apply Forall_app. split; [apply incl_removeAt; apply V; exact L4|apply U; exact R4].
    + apply Forall_app. split; [apply V; exact L5|apply incl_removeAt; apply U; exact R5].
    + apply Forall_app. split; [|apply Forall_app; split].
      * eapply Forall_impl; [|exact L6]. intros e He. cbv beta in He. rewrite app_length. lia.
      * rewrite Forall_map. eapply Forall_impl; [|exact R6]. intros e He. cbv beta in He. unfold up. cbn [fst snd]. rewrite app_length. lia.
      * constructor; [|constructor]. cbn [fst snd]. split.
        -- pose proof (V _ L4) as H. rewrite Forall_forall in H. apply H. apply nth_In. lia.
        -- pose proof (U _ R5) as H. rewrite Forall_forall in H. apply H. apply nth_In. rewrite map_length. lia.
Qed.

Lemma portIn_left : forall (wl wr : list (list A * list A)) p, fst p < length wl -> portIn d (wl ++ wr) p = portIn d wl p.
Proof. intros. unfold portIn. rewrite app_nth1 by assumption. reflexivity. Qed.
Lemma portOut_left : forall (wl wr : list (list A * list A)) p, fst p < length wl -> portOut d (wl ++ wr) p = portOut d wl p.
Proof. intros. unfold portOut. rewrite app_nth1 by assumption. reflexivity. Qed.
Lemma portIn_right : forall (wl wr : list (list A * list A)) p, portIn d (wl ++ wr) (up (length wl) p) = portIn d wr p.
Proof. intros. unfold portIn, up. cbn [fst snd]. rewrite app_nth2 by lia. replace (length wl + fst p - length wl) with (fst p) by lia. reflexivity. Qed.
Lemma portOut_right : forall (wl wr : list (list A * list A)) p, portOut d (wl ++ wr) (up (length wl) p) = portOut d wr p.
Proof. intros. unfold portOut, up. cbn [fst snd]. rewrite app_nth2 by lia. replace (length wl + fst p - length wl) with (fst p) by lia. reflexivity. Qed.

Lemma map_left : forall (f : list (list A * list A) -> nat * nat -> A) wl wr ps,
  (forall p, fst p < length wl -> f (wl ++ wr) p = f wl p) -> Forall (fun p => fst p < length wl) ps -> map (f (wl ++ wr)) ps = map (f wl) ps.
Proof.
  intros f wl wr ps Hf H. apply map_ext_in. intros p Hp. apply Hf. rewrite Forall_forall in H. apply H. exact Hp.
Qed.

(* Splitting a settled merged graph. *)
Lemma settles_merge : forall (l : blk) o (r : blk) i (sl sr : list X) (ins : list A) (wl wr : list (list A * list A)) (sl' sr' : list X), good (Merge l o r i) ->
  length sl = leaves l -> length sr = leaves r -> length sl' = leaves l -> length sr' = leaves r -> length wl = leaves l -> length wr = leaves r ->
  length ins = nIn (Merge l o r i) ->
  (settles d (graphOf (Merge l o r i)) (sl ++ sr) ins (wl ++ wr) (sl' ++ sr') <->
   settles d (graphOf l) sl (firstn (nIn l) ins) wl sl' /\
   settles d (graphOf r) sr (insertAt i (nth o (map (portOut d wl) (outs (graphOf l))) d) (skipn (nIn l) ins)) wr sr').
Proof.
  intros l o r i sl sr ins wl wr sl' sr' Hg L1 L2 L3 L4 L5 L6 Hins.
  pose proof Hg as Hg'. cbn [good] in Hg'. destruct Hg' as (Gl & Gr & Ho & Hi). cbn [nIn] in Hins.
  destruct (graph_sizes l Gl) as (N1 & N2 & N3 & N4 & N5 & N6). destruct (graph_sizes r Gr) as (M1 & M2 & M3 & M4 & M5 & M6).
  assert (El : length (nodes (graphOf l)) = length wl) by lia.
  unfold settles. cbn [graphOf]. cbn [nodes outs inps edges]. rewrite El.
  rewrite !app_length.
  (* node equations *)
  assert (HN : (forall k b io x x', nth_error (nodes (graphOf l) ++ nodes (graphOf r)) k = Some b -> nth_error (wl ++ wr) k = Some io ->
                 nth_error (sl ++ sr) k = Some x -> nth_error (sl' ++ sr') k = Some x' -> length (fst io) = nI b /\ fn b x (fst io) = (x', snd io)) <->
               (forall k b io x x', nth_error (nodes (graphOf l)) k = Some b -> nth_error wl k = Some io ->
                 nth_error sl k = Some x -> nth_error sl' k = Some x' -> length (fst io) = nI b /\ fn b x (fst io) = (x', snd io)) /\
               (forall k b io x x', nth_error (nodes (graphOf r)) k = Some b -> nth_error wr k = Some io ->
                 nth_error sr k = Some x -> nth_error sr' k = Some x' -> length (fst io) = nI b /\ fn b x (fst io) = (x', snd io))).
  { split.
    - intros H. split; intros k b io x x' E1 E2 E3 E4.
      + apply (H k b io x x'); (rewrite nth_error_app1; [assumption|apply nth_error_Some; congruence]).
      + apply (H (leaves l + k) b io x x').
        * rewrite nth_error_app2 by lia. replace (leaves l + k - length (nodes (graphOf l))) with k by lia. exact E1.
        * rewrite nth_error_app2 by lia. replace (leaves l + k - length wl) with k by lia. exact E2.
        * rewrite nth_error_app2 by lia. replace (leaves l + k - length sl) with k by lia. exact E3.
        * rewrite nth_error_app2 by lia. replace (leaves l + k - length sl') with k by lia. exact E4.
    - intros [Ha Hb] k b io x x' E1 E2 E3 E4. destruct (Nat.lt_ge_cases k (leaves l)) as [C|C].
      + rewrite nth_error_app1 in E1, E2, E3, E4 by lia. apply (Ha k b io x x'); assumption.
      + rewrite nth_error_app2 in E1, E2, E3, E4 by lia.
        replace (k - length (nodes (graphOf l))) with (k - leaves l) in E1 by lia.
        replace (k - length wl) with (k - leaves l) in E2 by lia.
        replace (k - length sl) with (k - leaves l) in E3 by lia.
        replace (k - length sl') with (k - leaves l) in E4 by lia.
        apply (Hb (k - leaves l) b io x x'); assumption. }
  (* edges *)
  set (Q := fun e : (nat * nat) * (nat * nat) => portIn d (wl ++ wr) (snd e) = portOut d (wl ++ wr) (fst e)).
  assert (HE : Forall Q (edges (graphOf l) ++ map (fun e => (up (length wl) (fst e), up (length wl) (snd e))) (edges (graphOf r)) ++
                   [(nth o (outs (graphOf l)) (0, 0), nth i (map (up (length wl)) (inps (graphOf r))) (0, 0))]) <->
               Forall (fun e => portIn d wl (snd e) = portOut d wl (fst e)) (edges (graphOf l)) /\
               Forall (fun e => portIn d wr (snd e) = portOut d wr (fst e)) (edges (graphOf r)) /\
               nth i (map (portIn d wr) (inps (graphOf r))) d = nth o (map (portOut d wl) (outs (graphOf l))) d).
  { rewrite !Forall_app, Forall_map.
    assert (Ea : Forall Q (edges (graphOf l)) <-> Forall (fun e => portIn d wl (snd e) = portOut d wl (fst e)) (edges (graphOf l))).
    { unfold Q. rewrite !Forall_forall. rewrite Forall_forall in N6. split; intros H e He; specialize (H e He); destruct (N6 e He) as [P1 P2].
      - rewrite portIn_left, portOut_left in H by lia. exact H.
      - rewrite portIn_left, portOut_left by lia. exact H. }
    assert (Eb : Forall (fun e => Q (up (length wl) (fst e), up (length wl) (snd e))) (edges (graphOf r)) <-> Forall (fun e => portIn d wr (snd e) = portOut d wr (fst e)) (edges (graphOf r))).
    { unfold Q. rewrite !Forall_forall. split; intros H e He; specialize (H e He); cbn [fst snd] in *.
      - rewrite portIn_right, portOut_right in H. exact H.
      - rewrite portIn_right, portOut_right. exact H. }
    assert (Ec : Forall Q [(nth o (outs (graphOf l)) (0, 0), nth i (map (up (length wl)) (inps (graphOf r))) (0, 0))] <->
                 nth i (map (portIn d wr) (inps (graphOf r))) d = nth o (map (portOut d wl) (outs (graphOf l))) d).
    { assert (E1 : nth i (map (up (length wl)) (inps (graphOf r))) (0, 0) = up (length wl) (nth i (inps (graphOf r)) (0, 0))).
      { rewrite (nth_indep _ (0, 0) (up (length wl) (0, 0))) by (rewrite map_length; lia). apply map_nth. }
      rewrite E1.
      assert (E2 : nth i (map (portIn d wr) (inps (graphOf r))) d = portIn d wr (nth i (inps (graphOf r)) (0, 0))).
      { rewrite (nth_indep _ d (portIn d wr (0, 0))) by (rewrite map_length; lia). apply map_nth. }
      assert (E3 : nth o (map (portOut d wl) (outs (graphOf l))) d = portOut d wl (nth o (outs (graphOf l)) (0, 0))).
      { rewrite (nth_indep _ d (portOut d wl (0, 0))) by (rewrite map_length; lia). apply map_nth. }
      rewrite E2, E3.
      assert (Sc : fst (nth o (outs (graphOf l)) (0, 0)) < length wl).
      { rewrite <- El. rewrite Forall_forall in N4. apply N4. apply nth_In. lia. }
      unfold Q. split.
      - intros H. apply Forall_inv in H. cbn [fst snd] in H. rewrite portIn_right, portOut_left in H by exact Sc. exact H.
      - intros H. constructor; [|constructor]. cbn [fst snd]. rewrite portIn_right, portOut_left by exact Sc. exact H. }
    tauto. }
  (* inputs *)
  assert (HI : map (portIn d (wl ++ wr)) (inps (graphOf l) ++ removeAt i (map (up (length wl)) (inps (graphOf r)))) = ins <->
               map (portIn d wl) (inps (graphOf l)) = firstn (nIn l) ins /\ removeAt i (map (portIn d wr) (inps (graphOf r))) = skipn (nIn l) ins).
  { rewrite map_app, map_removeAt, map_map.
    rewrite (map_left (portIn d) wl wr).
    2:{ intros p Hp. apply portIn_left. exact Hp. }
    2:{ rewrite <- El. exact N5. }
    rewrite (map_ext (fun x => portIn d (wl ++ wr) (up (length wl) x)) (portIn d wr)) by (intros p; apply portIn_right).
    assert (La : length (map (portIn d wl) (inps (graphOf l))) = nIn l) by (rewrite map_length; lia).
    split.
    - intros <-. rewrite <- La. split.
      + rewrite firstn_app, firstn_all, Nat.sub_diag. cbn [firstn]. rewrite app_nil_r. reflexivity.
      + rewrite skipn_app, skipn_all, Nat.sub_diag. reflexivity.
    - intros [-> ->]. apply firstn_skipn. }
  assert (HR : nth i (map (portIn d wr) (inps (graphOf r))) d = nth o (map (portOut d wl) (outs (graphOf l))) d ->
               removeAt i (map (portIn d wr) (inps (graphOf r))) = skipn (nIn l) ins ->
               map (portIn d wr) (inps (graphOf r)) = insertAt i (nth o (map (portOut d wl) (outs (graphOf l))) d) (skipn (nIn l) ins)).
  { intros <- <-. symmetry. apply insert_remove. rewrite map_length. lia. }
  assert (HR' : map (portIn d wr) (inps (graphOf r)) = insertAt i (nth o (map (portOut d wl) (outs (graphOf l))) d) (skipn (nIn l) ins) ->
               nth i (map (portIn d wr) (inps (graphOf r))) d = nth o (map (portOut d wl) (outs (graphOf l))) d /\
               removeAt i (map (portIn d wr) (inps (graphOf r))) = skipn (nIn l) ins).
  { intros E. rewrite E. assert (length (skipn (nIn l) ins) = nIn r - 1) by (rewrite skipn_length; lia).
    split; [apply nth_insertAt; lia|apply remove_insert; lia]. }
  split.
  - intros (_ & _ & _ & K1 & K2 & K3). apply HN in K1. apply HE in K2. apply HI in K3.
    destruct K1 as [K1a K1b]. destruct K2 as (K2a & K2b & K2c). destruct K3 as [K3a K3b].
    split.
    + split; [lia|]. split; [lia|]. split; [lia|]. split; [exact K1a|]. split; [exact K2a|exact K3a].
    + split; [lia|]. split; [lia|]. split; [lia|]. split; [exact K1b|]. split; [exact K2b|]. apply HR; assumption.
  - intros [(_ & _ & _ & K1a & K2a & K3a) (_ & _ & _ & K1b & K2b & K3b)].
    apply HR' in K3b. destruct K3b as [K3b K3c].
    split; [lia|]. split; [lia|]. split; [lia|].
    split; [apply HN; split; assumption|]. split; [apply HE; split; [assumption|split; assumption]|apply HI; split; assumption].
Qed.

Lemma map_outs_merge : forall (l : blk) o (r : blk) i (wl wr : list (list A * list A)), good (Merge l o r i) -> length wl = leaves l -> length wr = leaves r ->
  map (portOut d (wl ++ wr)) (outs (graphOf (Merge l o r i))) =
  removeAt o (map (portOut d wl) (outs (graphOf l))) ++ map (portOut d wr) (outs (graphOf r)).
Proof.
  intros l o r i wl wr Hg Hl Hr. cbn [good] in Hg. destruct Hg as (Gl & Gr & Ho & Hi).
  destruct (graph_sizes l Gl) as (N1 & N2 & N3 & N4 & N5 & N6).
  cbn [graphOf]. cbn [outs]. rewrite map_app, map_removeAt, map_map.
  rewrite (map_left (portOut d) wl wr).
  - f_equal. rewrite N1, <- Hl. apply map_ext. intros p. apply portOut_right.
  - intros p Hp. apply portOut_left. exact Hp.
  - rewrite Hl, <- N1. exact N4.
Qed.

Lemma map_seq_nth : forall (l : list A), map (fun j => nth j l d) (seq 0 (length l)) = l.
Proof.
  intros l. apply (nth_ext _ _ d d).
  - rewrite map_length, seq_length. reflexivity.
  - intros n Hn. rewrite map_length, seq_length in Hn.
    rewrite (nth_indep _ d (nth 0 l d)) by (rewrite map_length, seq_length; exact Hn).
    rewrite (map_nth (fun j => nth j l d)). rewrite seq_nth by exact Hn. reflexivity.
Qed.

Lemma split_at : forall (B : Type) (l : list B) n m, length l = n + m -> exists a b, l = a ++ b /\ length a = n /\ length b = m.
Proof.
  intros B l n m H. exists (firstn n l), (skipn n l). rewrite firstn_skipn, firstn_length, skipn_length. repeat split; lia.
Qed.

(* Whatever values settle the graph, they are the ones processOne computes. *)
Lemma graph_unique : forall (t : blk) st ins w st', good t -> length ins = nIn t -> settles d (graphOf t) st ins w st' ->
  processOne d t st ins = (st', map (portOut d w) (outs (graphOf t))).
Proof.
  induction t as [b|l IHl o r IHr i]; intros st ins w st' Hg Hi Hs.
  - destruct Hs as (S1 & S2 & S3 & S4 & _ & S6). cbn [graphOf nodes inps length] in S1, S2, S3, S4, S6.
    destruct w as [|[a c] [|? ?]]; cbn [length] in S1; try lia.
    destruct st as [|x [|? ?]]; cbn [length] in S2; try lia.
    destruct st' as [|x' [|? ?]]; cbn [length] in S3; try lia.
    destruct (S4 0 b (a, c) x x' eq_refl eq_refl eq_refl eq_refl) as [Q1 Q2]. cbn [fst snd] in Q1, Q2.
    rewrite map_map in S6. unfold portIn in S6. cbn [fst snd nth] in S6. rewrite <- Q1, map_seq_nth in S6. subst ins.
    cbn [processOne]. rewrite Q2. cbn [graphOf outs]. rewrite map_map. unfold portOut. cbn [fst snd nth].
    cbn [good] in Hg. pose proof (Hg x a Q1) as Lc. rewrite Q2 in Lc. cbn [snd] in Lc. rewrite <- Lc, map_seq_nth. reflexivity.
  - pose proof Hg as Hg'. cbn [good] in Hg'. destruct Hg' as (Gl & Gr & Ho & Hir).
    destruct (graph_sizes _ Hg) as (N1 & _). cbn [leaves] in N1.
    pose proof Hs as (S1 & S2 & S3 & _).
    destruct (split_at _ w (leaves l) (leaves r) ltac:(lia)) as (wl & wr & -> & W1 & W2).
    destruct (split_at _ st (leaves l) (leaves r) ltac:(lia)) as (sl & sr & -> & V1 & V2).
    destruct (split_at _ st' (leaves l) (leaves r) ltac:(lia)) as (sl' & sr' & -> & U1 & U2).
    apply settles_merge in Hs; try assumption.
    destruct Hs as [Ha Hb]. cbn [nIn] in Hi.
    apply IHl in Ha; [|exact Gl|rewrite firstn_length; lia].
    apply IHr in Hb; [|exact Gr|rewrite insertAt_length, skipn_length; lia].
    rewrite (map_outs_merge l o r i wl wr Hg W1 W2).
    cbn [processOne]. rewrite <- V1, firstn_app, skipn_app, firstn_all, skipn_all, Nat.sub_diag. cbn [firstn skipn app]. rewrite app_nil_r.
    rewrite Ha. rewrite insertAt_split by (rewrite skipn_length; lia). rewrite Hb. reflexivity.
Qed.

(* Some values do settle it. *)
Lemma graph_settles : forall (t : blk) st ins, good t -> length st = leaves t -> length ins = nIn t ->
  exists w st', settles d (graphOf t) st ins w st'.
Proof.
  induction t as [b|l IHl o r IHr i]; intros st ins Hg Hs Hi.
  - cbn [leaves] in Hs. destruct st as [|x [|? ?]]; cbn [length] in Hs; try lia.
    cbn [nIn] in Hi. destruct (fn b x ins) as [x' c] eqn:E.
    exists [(ins, c)], [x']. unfold settles. cbn [graphOf nodes edges inps length].
    split; [reflexivity|]. split; [reflexivity|]. split; [reflexivity|]. split; [|split].
    + intros k b0 io y y' E1 E2 E3 E4. destruct k as [|k]; [|destruct k; discriminate E1].
      cbn [nth_error] in E1, E2, E3, E4.
      assert (b0 = b) by congruence. assert (io = (ins, c)) by congruence. assert (y = x) by congruence. assert (y' = x') by congruence. subst b0 io y y'.
      cbn [fst snd]. split; assumption.
    + constructor.
    + rewrite map_map. unfold portIn. cbn [fst snd nth]. rewrite <- Hi. apply map_seq_nth.
  - pose proof Hg as Hg'. cbn [good] in Hg'. destruct Hg' as (Gl & Gr & Ho & Hir). cbn [leaves] in Hs. pose proof Hi as Hi'. cbn [nIn] in Hi.
    destruct (split_at _ st (leaves l) (leaves r) Hs) as (sl & sr & -> & V1 & V2).
    destruct (IHl sl (firstn (nIn l) ins) Gl V1) as (wl & sl' & Hl); [rewrite firstn_length; lia|].
    destruct (IHr sr (insertAt i (nth o (map (portOut d wl) (outs (graphOf l))) d) (skipn (nIn l) ins)) Gr V2) as (wr & sr' & Hr);
      [rewrite insertAt_length, skipn_length; lia|].
    destruct (graph_sizes l Gl) as (N1 & _). destruct (graph_sizes r Gr) as (M1 & _).
    pose proof Hl as (Q1 & Q2 & Q3 & _). pose proof Hr as (T1 & T2 & T3 & _).
    exists (wl ++ wr), (sl' ++ sr'). apply settles_merge; try assumption; try lia. split; assumption.
Qed.
End P.

(* ---------------- feedback ---------------- *)

Section PF.
Context {F B N A : Type} (fwd : F -> list A -> F * A) (fbk : B -> A -> B * A) (mon : N -> A -> N * A).

Lemma runM_length : forall (S I O : Type) (f : S -> I -> S * O) xs s, length (snd (runM f s xs)) = length xs.
Proof.
  induction xs as [|x xs IH]; intros s; [reflexivity|]. cbn [runM]. destruct (f s x) as [s1 o]. specialize (IH s1).
  destruct (runM f s1 xs) as [s2 os]. cbn [snd length] in *. lia.
Qed.

Lemma runM_cons : forall (S I O : Type) (f : S -> I -> S * O) x xs s,
  snd (runM f s (x :: xs)) = snd (f s x) :: snd (runM f (fst (f s x)) xs).
Proof.
  intros. cbn [runM]. destruct (f s x) as [s1 o]. cbn [fst snd]. destruct (runM f s1 xs). reflexivity.
Qed.

Lemma tap_stream : forall idx xs sf sb sn v os fs, Forall (fun x => idx <= length x) xs ->
  length os = length xs -> length fs = length xs ->
  (snd (runM (tapStep fwd fbk mon idx) (mkF sf sb sn v) xs) = combine os fs <->
   os = snd (runM fwd sf (zip (insertAt idx) (v :: fs) xs)) /\ fs = snd (runM fbk sb (snd (runM mon sn os)))).
Proof.
  induction xs as [|x xs IH]; intros sf sb sn v os fs Hx Ho Hf.
  - destruct os; [|discriminate Ho]. destruct fs; [|discriminate Hf]. cbn. tauto.
  - assert (H1 := Forall_inv Hx). assert (H2 := Forall_inv_tail Hx). cbv beta in H1.
    destruct os as [|o os]; [discriminate Ho|]. destruct fs as [|f fs]; [discriminate Hf|].
    cbn [length] in Ho, Hf.
    rewrite runM_cons. cbn [zip combine]. rewrite !runM_cons.
    unfold tapStep at 1 3, fbStep. cbn [sF sB sN sV]. rewrite insertAt_split by exact H1.
    destruct (fwd sf (insertAt idx v x)) as [sf1 o1]. cbn [fst snd].
    destruct (mon sn o1) as [sn1 m1] eqn:Em. cbn [fst snd].
    destruct (fbk sb m1) as [sb1 v1] eqn:Eb. cbn [fst snd sV].
    specialize (IH sf1 sb1 sn1 f os fs H2 ltac:(lia) ltac:(lia)).
    split.
    + intros E. assert (E1 : o1 = o /\ v1 = f) by (split; congruence). destruct E1 as [-> ->].
      assert (E2 : snd (runM (tapStep fwd fbk mon idx) (mkF sf1 sb1 sn1 f) xs) = combine os fs) by congruence.
      apply IH in E2. destruct E2 as [E2 E3]. rewrite Em. cbn [fst snd]. rewrite Eb. cbn [fst snd]. split; [f_equal; exact E2|congruence].
    + intros [E1 E2]. assert (o = o1) by congruence. subst o. rewrite Em in E2. cbn [fst snd] in E2. rewrite Eb in E2. cbn [fst snd] in E2.
      assert (f = v1) by congruence. subst f. f_equal. apply IH. split; [apply (f_equal (@tl A)) in E1; exact E1|congruence].
Qed.

Lemma fb_tap : forall idx xs st, snd (runM (fbStep fwd fbk mon idx) st xs) = map fst (snd (runM (tapStep fwd fbk mon idx) st xs)).
Proof.
  induction xs as [|x xs IH]; intros st; [reflexivity|]. rewrite !runM_cons. cbn [map]. unfold tapStep at 1 3.
  destruct (fbStep fwd fbk mon idx st x) as [s o]. cbn [fst snd]. f_equal. apply IH.
Qed.
End PF.

(* ---------------- sums of paths ---------------- *)

Section PS.
Context {X A : Type}.

(* The sum of the streams, element by element. *)
Fixpoint addAll (n : nat) (signs : list Z) (i : nat) (ls : list (list Z)) : list Z :=
  match ls with
  | [] => repeat 0%Z n
  | l :: r => zip (fun a b => (signOf signs i * a + b)%Z) l (addAll n signs (S i) r)
  end.

Lemma sumFrom_eq : forall signs l i v, sumFrom signs i (v :: l) = (signOf signs i * v + sumFrom signs (S i) l)%Z.
Proof. intros signs l i v. cbn [sumFrom]. destruct l as [|w r]; [cbn [sumFrom]; ring|reflexivity]. Qed.

Fixpoint runAll (paths : list (X -> A -> X * Z)) (st : list X) (xs : list A) : list (list Z) :=
  match paths, st with
  | p :: ps, s :: ss => snd (runM p s xs) :: runAll ps ss xs
  | _, _ => []
  end.

Lemma callAll_length : forall paths (st : list X) (x : A), length paths = length st -> length (fst (callAll paths st x)) = length st.
Proof.
  induction paths as [|p ps IH]; intros st x H; destruct st as [|s ss]; cbn [length] in H; try lia; [reflexivity|].
  cbn [callAll]. destruct (p s x) as [s1 v]. specialize (IH ss x ltac:(lia)). destruct (callAll ps ss x). cbn [fst length] in *. lia.
Qed.

Lemma addAll_cons : forall signs paths (st : list X) (x : A) xs i, length paths = length st ->
  addAll (S (length xs)) signs i (runAll paths st (x :: xs)) =
  sumFrom signs i (snd (callAll paths st x)) :: addAll (length xs) signs i (runAll paths (fst (callAll paths st x)) xs).
Proof.
  induction paths as [|p ps IH]; intros st x xs i H; destruct st as [|s ss]; cbn [length] in H; try lia; [reflexivity|].
  cbn [runAll addAll callAll]. rewrite runM_cons. rewrite (IH ss x xs (S i) ltac:(lia)).
  destruct (p s x) as [s1 v]. cbn [fst snd]. destruct (callAll ps ss x) as [r vs]. cbn [fst snd zip].
  rewrite sumFrom_eq. reflexivity.
Qed.

Lemma smc_stream : forall signs paths xs (st : list X), length paths = length st ->
  snd (runM (smcStep signs paths) st xs) = addAll (length xs) signs 0 (runAll paths st xs).
Proof.
  induction xs as [|x xs IH]; intros st H.
  - cbn [runM snd length]. destruct paths as [|p ps]; destruct st as [|s ss]; reflexivity.
  - rewrite runM_cons. cbn [length]. rewrite addAll_cons by exact H.
    unfold smcStep at 1 3. pose proof (callAll_length paths st x H) as HL.
    destruct (callAll paths st x) as [s vs]. cbn [fst snd] in *. f_equal. apply IH. lia.
Qed.
End PS.
