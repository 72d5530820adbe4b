(* C207-C210: graphs saved and loaded. *)

From Coq Require Import ZArith Bool Lia String List.
From Verif Require Import GrcModel GrcSpec GrcProofs.
Import ListNotations.

Local Open Scope string_scope.
Local Open Scope Z_scope.

(* C207.  Blocks with different names come back with their types, names,
   settings and contexts in their order, and edges with their ends, ports and
   sizes of at most 32 bits. *)
Theorem C207_round_trip : forall known sub dflt g, okGraph known g -> distinct g ->
  exists es', loadGraph known sub dflt (saveGraph g) = Some (fst g, es') /\
  Forall2 (fun e e' => sameEnds e e' /\ (eMin e < 2 ^ 32 -> eMin e' = eMin e)) (snd g) es'.
Proof.
  intros known sub dflt [bs es] Hok Hd; unfold distinct in Hd; cbn [fst snd] in *.
  destruct (load_save known sub dflt bs es Hok) as (es' & E & F).
  exists es'; split; [exact E|]. clear E.
  destruct Hok as [_ He]; cbn [fst snd] in He.
  induction F as [|e e' es es' K F IH]; constructor.
  - destruct (He e (or_introl eq_refl)) as (Hs & Ht & _ & _ & Hm & _).
    destruct K as (K1 & K2 & K3 & K4 & K5 & _). split.
    + unfold sameEnds. split; [exact (lastOf_distinct _ _ _ Hd Hs K1)|]. split; [exact K3|].
      split; [exact (lastOf_distinct _ _ _ Hd Ht K2)|exact K4].
    + intros Hlt. rewrite K5. apply Z.mod_small. lia.
  - apply IH. intros x Hx. apply He. right. exact Hx.
Qed.
Print Assumptions C207_round_trip.

(* With ordinary edges the loaded graph is the saved one. *)
Theorem C207_same_graph : forall known sub dflt g, okGraph known g -> distinct g ->
  (forall e, In e (snd g) -> ordinary e) -> loadGraph known sub dflt (saveGraph g) = Some g.
Proof.
  intros known sub dflt [bs es] Hok Hd Ho; unfold distinct in Hd; cbn [fst snd] in Hd, Ho.
  destruct (load_save known sub dflt bs es Hok) as (es' & E & F). rewrite E. f_equal. f_equal. clear E.
  destruct Hok as [_ He]; cbn [fst snd] in He.
  induction F as [|e e' es es' K F IH]; [reflexivity|]. f_equal.
  - destruct (He e (or_introl eq_refl)) as (Hs & Ht & _ & _ & Hm & _).
    destruct (Ho e (or_introl eq_refl)) as (O1 & O2 & O3).
    destruct K as (K1 & K2 & K3 & K4 & K5 & K6 & K7).
    rewrite Z.mod_small in K5 by lia.
    apply lastOf_distinct in K1; [|exact Hd|exact Hs]. apply lastOf_distinct in K2; [|exact Hd|exact Ht].
    destruct e as [a b c d m w n], e' as [a' b' c' d' m' w' n']; cbn [eS eSP eD eDP eMin eW eN] in *; congruence.
  - apply IH; intros x Hx; [apply He|apply Ho]; right; exact Hx.
Qed.
Print Assumptions C207_same_graph.

(* Refuted: weight and name of an edge never come back. *)
Theorem C207_weight_and_name_refuted : forall known sub dflt g, okGraph known g ->
  (exists e, In e (snd g) /\ (eW e <> 0 \/ eN e <> "unnamed edge")) ->
  loadGraph known sub dflt (saveGraph g) <> Some g.
Proof.
  intros known sub dflt [bs es] Hok (e & Hin & Hne) Hc; cbn [snd] in Hin.
  destruct (load_save known sub dflt bs es Hok) as (es' & E & F).
  assert (es' = es) by congruence; subst es'. clear E Hc Hok.
  assert (G : forall l l', Forall2 (kept bs) l l' -> forall x, In x l' -> eW x = 0 /\ eN x = "unnamed edge").
  { intros l l' H; induction H as [|a b l l' K _ IH]; intros x Hx; [destruct Hx|].
    destruct Hx as [<- | Hx]; [|apply IH, Hx]. split; apply K. }
  destruct (G _ _ F e Hin) as (A & B). destruct Hne; contradiction.
Qed.
Print Assumptions C207_weight_and_name_refuted.

(* Refuted: a size is kept modulo 2^32 only, so 4 GiB samples become 0. *)
Theorem C207_large_size_refuted : forall known sub dflt g, okGraph known g -> distinct g ->
  (exists e, In e (snd g) /\ 2 ^ 32 <= eMin e) ->
  exists es', loadGraph known sub dflt (saveGraph g) = Some (fst g, es') /\
  Exists (fun e' => exists e, In e (snd g) /\ sameEnds e e' /\ 2 ^ 32 <= eMin e /\ eMin e' < 2 ^ 32) es'.
Proof.
  intros known sub dflt [bs es] Hok Hd (e & Hin & Hbig); unfold distinct in Hd; cbn [fst snd] in *.
  destruct (load_save known sub dflt bs es Hok) as (es' & E & F).
  exists es'; split; [exact E|]. clear E. destruct Hok as [_ He]; cbn [fst snd] in He.
  induction F as [|a b es es' K F IH]; [destruct Hin|].
  destruct Hin as [-> | Hin].
  - apply Exists_cons_hd. exists e.
    destruct (He e (or_introl eq_refl)) as (Hs & Ht & _). destruct K as (K1 & K2 & K3 & K4 & K5 & _).
    split; [left; reflexivity|]. split.
    { unfold sameEnds. split; [exact (lastOf_distinct _ _ _ Hd Hs K1)|]. split; [exact K3|].
      split; [exact (lastOf_distinct _ _ _ Hd Ht K2)|exact K4]. }
    split; [exact Hbig|]. rewrite K5. apply Z.mod_pos_bound. lia.
  - apply Exists_cons_tl.
    assert (X := IH (fun x Hx => He x (or_intror Hx)) Hin).
    apply Exists_exists in X. apply Exists_exists. destruct X as (x & Hx & y & Hy & R).
    exists x; split; [exact Hx|]. exists y; split; [right; exact Hy|exact R].
Qed.
Print Assumptions C207_large_size_refuted.

(* C208.  Whatever the names, a loaded edge joins the last blocks that have
   the names of its ends; all blocks come back. *)
Theorem C208_last_of_name : forall known sub dflt g, okGraph known g ->
  exists es', loadGraph known sub dflt (saveGraph g) = Some (fst g, es') /\
  Forall2 (fun e e' => lastOf (fst g) (eS e) (eS e') /\ lastOf (fst g) (eD e) (eD e') /\
                       eSP e' = eSP e /\ eDP e' = eDP e) (snd g) es'.
Proof.
  intros known sub dflt [bs es] Hok; cbn [fst snd].
  destruct (load_save known sub dflt bs es Hok) as (es' & E & F).
  exists es'; split; [exact E|]. revert F. apply F2_imp.
  intros e e' (A & B & C & D & _). repeat split; assumption || apply A || apply B.
Qed.
Print Assumptions C208_last_of_name.

Definition two (n1 n2 : string) : list blk :=
  [Normal "src" n1 [("name", VStr n1)] []; Normal "src" n2 [("name", VStr n2); ("gain", VNum I64 2)] [("beam", 7, [("gain", VNum I64 3)])];
   Normal "snk" "sink" [("name", VStr "sink")] []].

Lemma two_ok : forall n1 n2 es, (forall e, In e es -> okEdge (two n1 n2) e) -> okGraph (fun _ => true) (two n1 n2, es).
Proof.
  intros n1 n2 es H; split; cbn [fst snd]; [|exact H].
  intros b [<- | [<- | [<- | []]]]; cbn [plain]; repeat split; try discriminate; try reflexivity.
  - intros c [].
  - intros c [<- | []]. discriminate.
  - intros c [].
Qed.

(* Refuted: with two blocks of one name an edge moves to the other block. *)
Theorem C208_equal_names_refuted : forall known sub dflt g, okGraph known g ->
  forall i j e, nth_error (snd g) i = Some e -> (eS e < j < List.length (fst g))%nat ->
  nth j (map nameOf (fst g)) "" = nth (eS e) (map nameOf (fst g)) "" ->
  exists es' e', loadGraph known sub dflt (saveGraph g) = Some (fst g, es') /\
  nth_error es' i = Some e' /\ eS e' <> eS e.
Proof.
  intros known sub dflt [bs es] Hok i j e Hi Hj Hnm; cbn [fst snd] in *.
  destruct (load_save known sub dflt bs es Hok) as (es' & E & F).
  exists es'. clear Hok. revert i Hi.
  assert (G : forall i, nth_error es i = Some e -> exists e', nth_error es' i = Some e' /\ kept bs e e').
  { clear E. induction F as [|a b es es' K F IH]; intros i Hi; [destruct i; discriminate|].
    destruct i as [|i]; cbn [nth_error] in *.
    - assert (a = e) by congruence; subst. exists b; split; [reflexivity|exact K].
    - apply IH, Hi. }
  intros i Hi. destruct (G i Hi) as (e' & He' & K). exists e'; split; [exact E|]; split; [exact He'|].
  destruct K as ((_ & _ & L) & _). intros Hc. rewrite Hc in L. exact (L j Hj Hnm).
Qed.
Print Assumptions C208_equal_names_refuted.

(* C209 (refuted).  No graph with a sub-graph can be loaded from what was saved. *)
Theorem C209_subgraph_refuted : forall known sub dflt g nm bs es ex, In (Sub nm bs es ex) (fst g) ->
  loadGraph known sub dflt (saveGraph g) = None.
Proof.
  intros known sub dflt [bl el] nm bs es ex Hin; cbn [fst] in Hin.
  unfold loadGraph, saveGraph, field; cbn [look String.eqb Ascii.eqb Bool.eqb fst snd].
  rewrite mapsOf_save, all_map. rewrite (all_none _ _ _ _ _ Hin); [reflexivity|]. apply loadBlock_sub.
Qed.
Print Assumptions C209_subgraph_refuted.

(* Refuted: nor can any exported port that was saved. *)
Theorem C209_exported_port_refuted : forall x, loadExport (saveExport x) = None.
Proof. intros [[b d] m]; reflexivity. Qed.
Print Assumptions C209_exported_port_refuted.

(* What the loader accepts as exported port: four strings. *)
Theorem C209_accepted : forall v b d i x,
  loadExport v = Some (b, d, i, x) <->
  exists s, v = VList [VStr b; VStr s; VStr i; VStr x] /\ (d = true <-> s = "INPUT").
Proof.
  intros v b d i x; split.
  - intros H; unfold loadExport in H.
    destruct v as [t z|s|l|m]; try discriminate.
    destruct l as [|v1 [|v2 [|v3 [|v4 [|v5 l]]]]]; try discriminate.
    destruct v1 as [|s1| |], v2 as [|s2| |], v3 as [|s3| |], v4 as [|s4| |]; try discriminate.
    cbn [asStr] in H. exists s2.
    assert (s1 = b /\ s3 = i /\ s4 = x /\ String.eqb s2 "INPUT" = d) as (-> & -> & -> & <-)
      by (repeat split; congruence).
    split; [reflexivity|]. apply String.eqb_eq.
  - intros (s & -> & Hd); cbn [loadExport asStr]. repeat f_equal.
    destruct (String.eqb_spec s "INPUT") as [Hs | Hs]; destruct d; try reflexivity.
    + exfalso. assert (false = true) by (apply Hd; exact Hs). discriminate.
    + exfalso. apply Hs, Hd. reflexivity.
Qed.
Print Assumptions C209_accepted.

(* C210.  A loaded document has one edge for every connection, with the ends
   and ports written there, and one block for every entry. *)
Theorem C210_edges : forall known sub dflt m bs es conns, loadGraph known sub dflt m = Some (bs, es) ->
  look "connections" m = Some (VList conns) -> Forall2 (connection bs) conns es.
Proof.
  intros known sub dflt m bs es conns H Hc. apply load_inv in H. destruct H as [_ H].
  unfold field in H; rewrite Hc in H. revert H. apply F2_imp. intros v e He.
  apply (connection_iff dflt). exists e; split; [exact He|repeat split].
Qed.
Print Assumptions C210_edges.

(* The blocks loaded, all connections between them are accepted: there is no other error. *)
Theorem C210_accepted : forall known sub dflt m bl bs conns,
  look "blocks" m = Some (VList bl) -> loadGraph known sub dflt [("blocks", VList bl)] = Some (bs, []) ->
  look "connections" m = Some (VList conns) ->
  ((exists es, loadGraph known sub dflt m = Some (bs, es)) <-> (forall v, In v conns -> exists e, connection bs v e)).
Proof.
  intros known sub dflt m bl bs conns Hb Hl Hc. split.
  - intros (es & H) v Hv. assert (F := C210_edges _ _ _ _ _ _ _ H Hc). clear - F Hv.
    induction F as [|x e l es K F IH]; [destruct Hv|]. destruct Hv as [<- | Hv]; [exists e; exact K|exact (IH Hv)].
  - intros H. unfold loadGraph in Hl. unfold loadGraph.
    replace (field "blocks" [("blocks", VList bl)]) with (field "blocks" m) in Hl
      by (unfold field; rewrite Hb; reflexivity).
    destruct (all (loadBlock known sub) (mapsOf (field "blocks" m))) as [bs'|]; [|discriminate].
    assert (bs' = bs) by (cbn [field look String.eqb Ascii.eqb Bool.eqb all] in Hl; congruence); subst bs'.
    assert (G : forall v, In v conns -> exists e, loadEdge dflt (map nameOf bs) v = Some e /\ True).
    { intros v Hv. destruct (H v Hv) as (e & He). apply (connection_iff dflt) in He.
      destruct He as (e' & He' & _). exists e'; split; [exact He'|exact I]. }
    destruct (all_exists _ _ _ (fun _ _ => True) conns G) as (es & E & _).
    exists es. unfold field; rewrite Hc, E. reflexivity.
Qed.
Print Assumptions C210_accepted.

Theorem C210_blocks : forall known sub dflt m bs es ms, loadGraph known sub dflt m = Some (bs, es) ->
  look "blocks" m = Some (VList (map VMap ms)) ->
  Forall2 (fun x b => exists p nm ty,
    look "parameters" x = Some (VMap p) /\ look "name" p = Some (VStr nm) /\ look "id" x = Some (VStr ty) /\
    (ty <> "SUBGRAPH" -> known ty = true /\ exists cx, b = Normal ty nm p cx)) ms bs.
Proof.
  intros known sub dflt m bs es ms H Hm. apply load_inv in H. destruct H as [H _].
  unfold field in H; rewrite Hm, mapsOf_maps in H. revert H. apply F2_imp.
  intros x b Hb. unfold loadBlock, getName in Hb.
  destruct (look "parameters" x) as [[t z|s|l|p]|] eqn:E1; try discriminate.
  destruct (look "name" p) as [[t z|nm|l|q]|] eqn:E2; try discriminate. cbn [asStr] in Hb.
  destruct (look "id" x) as [[t z|ty|l|q]|] eqn:E3; try discriminate.
  exists p, nm, ty. split; [reflexivity|]. split; [exact E2|]. split; [reflexivity|]. intros Hne.
  apply String.eqb_neq in Hne. rewrite Hne in Hb.
  destruct (known ty); [|discriminate]. split; [reflexivity|].
  destruct (look "ctx_parameters" x) as [[t z|s|l|q]|]; try discriminate.
  - destruct (all loadCtx l) as [cx|]; [|discriminate]. exists cx. congruence.
  - exists []. congruence.
Qed.
Print Assumptions C210_blocks.

(* The buffer size: the default without one, else the size written. *)
Theorem C210_size : forall known sub dflt m bs es conns, loadGraph known sub dflt m = Some (bs, es) ->
  look "connections" m = Some (VList conns) ->
  Forall2 (fun v e =>
    (forall a b c d, v = VList [a; b; c; d] -> eMin e = dflt (eS e) (eSP e)) /\
    (forall a b c d t z r, v = VList (a :: b :: c :: d :: VNum t z :: r) -> t <> Real -> 0 <= z < 2 ^ 64 - 1 -> eMin e = z))
    conns es.
Proof.
  intros known sub dflt m bs es conns H Hc. apply load_inv in H. destruct H as [_ H].
  unfold field in H; rewrite Hc in H. revert H. apply F2_imp. intros v e He. split.
  - intros a b c d ->. unfold loadEdge in He.
    destruct (loadEnd (map nameOf bs) a) as [s|]; [|discriminate]. destruct (loadPort b) as [sp|]; [|discriminate].
    destruct (loadEnd (map nameOf bs) c) as [t|]; [|discriminate]. destruct (loadPort d) as [tp|]; [|discriminate].
    unfold connect in He; rewrite Z.eqb_refl in He. set (x := dflt s sp) in He.
    assert (e = mkE s sp t tp x defW defN) as -> by congruence. reflexivity.
  - intros a b c d t z r -> Ht Hz. unfold loadEdge in He.
    destruct (loadEnd (map nameOf bs) a) as [s|]; [|discriminate]. destruct (loadPort b) as [sp|]; [|discriminate].
    destruct (loadEnd (map nameOf bs) c) as [u|]; [|discriminate]. destruct (loadPort d) as [tp|]; [|discriminate].
    assert (L : loadSize (VNum t z) = z).
    { destruct t; cbn [loadSize]; try (apply Z.mod_small; lia). congruence. }
    rewrite L in He. unfold connect in He.
    replace (z =? undef) with false in He by (symmetry; apply Z.eqb_neq; unfold undef; lia).
    assert (e = mkE s sp u tp z defW defN) as -> by congruence. reflexivity.
Qed.
Print Assumptions C210_size.

(* Refuted: a negative size is not an error; -1 asks for the default and every
   other one for about 2^64 samples. *)
Theorem C210_negative_size_refuted : forall known sub dflt m bs es conns, loadGraph known sub dflt m = Some (bs, es) ->
  look "connections" m = Some (VList conns) ->
  Forall2 (fun v e => forall a b c d z r, v = VList (a :: b :: c :: d :: VNum I64 z :: r) ->
    (z = -1 -> eMin e = dflt (eS e) (eSP e)) /\ (- 2 ^ 63 <= z < -1 -> eMin e = 2 ^ 64 + z)) conns es.
Proof.
  intros known sub dflt m bs es conns H Hc. apply load_inv in H. destruct H as [_ H].
  unfold field in H; rewrite Hc in H. revert H. apply F2_imp. intros v e He.
  intros a b c d z r ->. unfold loadEdge in He.
  destruct (loadEnd (map nameOf bs) a) as [s|]; [|discriminate]. destruct (loadPort b) as [sp|]; [|discriminate].
  destruct (loadEnd (map nameOf bs) c) as [u|]; [|discriminate]. destruct (loadPort d) as [tp|]; [|discriminate].
  cbn [loadSize] in He. split; intros Hz.
  - subst z. unfold connect in He. change (-1 mod 2 ^ 64 =? undef) with true in He. cbv iota in He.
    set (x := dflt s sp) in He.
    assert (e = mkE s sp u tp x defW defN) as -> by congruence. reflexivity.
  - assert (M : z mod 2 ^ 64 = 2 ^ 64 + z).
    { symmetry. apply (Z.mod_unique_pos z (2 ^ 64) (-1)); lia. }
    rewrite M in He. unfold connect in He.
    replace (2 ^ 64 + z =? undef) with false in He by (symmetry; apply Z.eqb_neq; unfold undef; lia).
    set (x := 2 ^ 64 + z) in He.
    assert (e = mkE s sp u tp x defW defN) as -> by congruence. reflexivity.
Qed.
Print Assumptions C210_negative_size_refuted.

(* Cases that meet the hypotheses. *)
Definition e1 : edge := mkE 0 (PIdx 0) 2 (PSub 0 1) 4096 0 "unnamed edge".
Definition e2 : edge := mkE 1 (PName "out") 2 (PIdx 1) (2 ^ 32) 5 "fast".

Lemma e1_ok : okEdge (two "a" "b") e1.
Proof. repeat split; cbn; try lia; discriminate. Qed.
Lemma e2_ok : okEdge (two "a" "b") e2.
Proof. repeat split; cbn; try lia; discriminate. Qed.

Example C207_case : okGraph (fun _ => true) (two "a" "b", [e1; e2]) /\ distinct (two "a" "b", [e1; e2]) /\
  ordinary e1 /\ ~ ordinary e2 /\
  loadGraph (fun _ => true) (fun _ _ => None) (fun _ _ => 65536) (saveGraph (two "a" "b", [e1; e2])) =
    Some (two "a" "b", [e1; mkE 1 (PName "out") 2 (PIdx 1) 0 0 "unnamed edge"]).
Proof.
  split; [apply two_ok; intros e [<- | [<- | []]]; [exact e1_ok|exact e2_ok]|].
  split. { unfold distinct; cbn. repeat constructor; cbn; intuition discriminate. }
  split; [repeat split; reflexivity|]. split; [intros (H & _); discriminate H|]. reflexivity.
Qed.

Example C208_case : okGraph (fun _ => true) (two "src" "src", [e1]) /\
  loadGraph (fun _ => true) (fun _ _ => None) (fun _ _ => 65536) (saveGraph (two "src" "src", [e1])) =
    Some (two "src" "src", [mkE 1 (PIdx 0) 2 (PSub 0 1) 4096 0 "unnamed edge"]).
Proof.
  split; [|reflexivity]. apply two_ok. intros e [<- | []]. repeat split; cbn; try lia; discriminate.
Qed.

(* The same document is accepted if the sub-graph has its name as parameter. *)
Example C209_case :
  let sub := fun nm (_ : vmap) => Some (Sub nm [] [] []) in
  loadGraph (fun _ => true) sub (fun _ _ => 0) (saveGraph ([Sub "inner" (two "a" "b") [e1] [("u", true, [])]], [])) = None /\
  loadGraph (fun _ => true) sub (fun _ _ => 0)
    [("blocks", VList [VMap [("id", VStr "SUBGRAPH"); ("parameters", VMap [("name", VStr "inner")])]])] =
    Some ([Sub "inner" [] [] []], []).
Proof. split; reflexivity. Qed.

Example C210_case :
  let doc r := [("blocks", VList (map saveBlock (two "a" "b"))); ("connections", VList r)] in
  let load r := loadGraph (fun _ => true) (fun _ _ => None) (fun _ _ => 65536) (doc r) in
  load [VList [VStr "a"; VNum I64 0; VStr "sink"; VStr "in"]] = Some (two "a" "b", [mkE 0 (PIdx 0) 2 (PName "in") 65536 0 "unnamed edge"]) /\
  load [VList [VStr "a"; VNum I64 0; VStr "sink"; VStr "in"; VNum I64 (-2)]] =
    Some (two "a" "b", [mkE 0 (PIdx 0) 2 (PName "in") (2 ^ 64 - 2) 0 "unnamed edge"]) /\
  load [VList [VStr "c"; VNum I64 0; VStr "sink"; VStr "in"]] = None /\
  load [VList [VStr "a"; VNum I64 (-1); VStr "sink"; VStr "in"]] = None /\
  load [VList [VStr "a"; VNum I64 0; VStr "sink"]] = None.
Proof. repeat split; reflexivity. Qed.
